(** C109: numbers through their texts with conv.To. *)
From Coq Require Import ZArith List QArith Qabs Bool Lia String ZifyBool.
From Verif Require Import Base Conv ConvSpec ConvProofs Float FloatSpec FloatProofs FloatProofs2 ConvFloat ConvFloatSpec ConvFloatProofs ConvFloatProofs2 ConvFloatProofs3 ConvFloatProofs4.
From Verif Require Import Literal LiteralSpec LiteralProofs LiteralProofs2 LiteralProofs3 FloatText PropsConv PropsLiteral.
Close Scope Q_scope.
Open Scope Z_scope.

Section Texts.
  (** what the machine makes of an out of range conversion of a float to an integer type *)
  Variable oor : ikind -> float -> Z.
  (** conv.To with the texts of conv/string.go *)
  Notation To := (to oor float_parse float_to_string bigfloat_to_string rat_set_string).

  Lemma decimal_numeral s v : decimal_text s v -> exists neg m, numeral s neg m 0 10 0 /\ v = (if neg then - m else m) /\ (numeral_value neg m 0 10 0 == inject_Z v)%Q.
  Proof.
    assert (K : forall (neg : bool) m, (numeral_value neg m 0 10 0 == inject_Z (if neg then - m else m))%Q).
    { intros neg m. unfold numeral_value. change (inject_Z 10 ^ (- 0))%Q with 1%Q. change (inject_Z 10 ^ 0)%Q with 1%Q. ring. }
    intros [l D|l D|l D].
    - exists false, (in_base_ten l). split; [|split; [reflexivity|apply (K false)]]. pose proof (num_plain l [] _ _ _ _ (mant_int l D) exp_none) as N. rewrite app_nil_r in N. exact N.
    - exists false, (in_base_ten l). split; [|split; [reflexivity|apply (K false)]]. pose proof (num_plus l [] _ _ _ _ (mant_int l D) exp_none) as N. rewrite app_nil_r in N. exact N.
    - exists true, (in_base_ten l). split; [|split; [reflexivity|apply (K true)]]. pose proof (num_minus l [] _ _ _ _ (mant_int l D) exp_none) as N. rewrite app_nil_r in N. exact N.
  Qed.
  Lemma int64_0 : int64 0. Proof. unfold int64. lia. Qed.
  Lemma b10_bound l : forall z, 0 <= z -> digits_only l -> b10 z l < (z + 1) * 10 ^ Z.of_nat (List.length l).
  Proof.
    induction l as [|c l IH]; intros z Hz D; [cbn; lia|]. inversion D as [|? ? Hc D']; subst. cbn [b10 fold_left List.length].
    change (fold_left (fun a c0 => a * 10 + (c0 - 48)) l (z * 10 + (c - 48))) with (b10 (z * 10 + (c - 48)) l).
    specialize (IH (z * 10 + (c - 48)) ltac:(lia) D'). rewrite Nat2Z.inj_succ, Z.pow_succ_r by lia. pose proof (Z.pow_pos_nonneg 10 (Z.of_nat (List.length l)) ltac:(lia) ltac:(lia)). nia.
  Qed.
  Lemma text_short s v : decimal_text s v -> Z.abs v < 10 ^ Z.of_nat (List.length s).
  Proof.
    assert (K : forall l, digit_string l -> Z.abs (in_base_ten l) < 10 ^ Z.of_nat (List.length l)).
    { intros l (_ & D). pose proof (b10_bound l 0 ltac:(lia) D) as B. pose proof (b10_nonneg l 0 ltac:(lia) D) as N. unfold b10 in B, N. unfold in_base_ten. lia. }
    assert (K' : forall c (l : list Z), 10 ^ Z.of_nat (List.length l) <= 10 ^ Z.of_nat (List.length (c :: l))).
    { intros c l. apply Z.pow_le_mono_r; cbn [List.length]; lia. }
    intros [l D|l D|l D]; pose proof (K l D); try assumption; [pose proof (K' 43 l)|pose proof (K' 45 l)]; lia.
  Qed.
  Lemma text_prec s v : decimal_text s v -> short 2 (Z.max 53 (Z.log2_up (10 ^ Z.of_nat (List.length s)))) (inject_Z v).
  Proof.
    intros D. pose proof (text_short s v D) as B. exists v, 0. split; [|unfold digits; change (inject_Z 2 ^ 0)%Q with 1%Q; ring].
    pose proof (Z.log2_up_nonneg (10 ^ Z.of_nat (List.length s))). set (P := 10 ^ Z.of_nat (List.length s)) in *.
    assert (L : P <= 2 ^ Z.log2_up P).
    { destruct (Z.eq_dec P 1) as [->|N1]; [cbn; lia|]. apply Z.log2_up_spec. lia. }
    assert (2 ^ Z.log2_up P <= 2 ^ Z.max 53 (Z.log2_up P)) by (apply Z.pow_le_mono_r; lia). lia.
  Qed.

  Lemma nat_lit s neg m (v : Z) : numeral s neg m 0 10 0 -> v = (if neg then - m else m) -> Z.log2 (Z.abs v) < 2 ^ 31 - 1 ->
    exists n d, float_parse s = Some (LNum neg n d) /\ 0 <= n /\ 0 < d /\ ((if neg then - fr n d else fr n d) == inject_Z v)%Q.
  Proof.
    intros N E L. assert (M0 : 0 <= m). { destruct (numeral_inv _ _ _ _ _ _ N) as (a & t & _ & M & _). apply (mantissa_nonneg _ _ _ M). }
    assert (F : float_range m 0 0).
    { destruct (Z.eq_dec m 0) as [->|Z0]; [left; reflexivity|right]. replace (Z.abs v) with m in L by (destruct neg; lia). pose proof (Z.log2_nonneg m). lia. }
    destruct (float_parse_numeral s neg m 0 10 0 N int64_0 F) as (l & EP & V). destruct l as [|n' n d]; [destruct V|].
    destruct V as (-> & Hn & Hd & V). exists n, d. split; [exact EP|]. split; [exact Hn|]. split; [exact Hd|].
    assert (Eq : ((if neg then - fr n d else fr n d) == numeral_value neg m 0 10 0)%Q).
    { rewrite <- V, Qmake_fr by exact Hd. destruct neg; [|reflexivity]. unfold fr. rewrite inject_Z_opp. field. intros Z0. apply inject_Z_0 in Z0. lia. }
    rewrite Eq. unfold numeral_value. change (inject_Z 10 ^ (- 0))%Q with 1%Q. change (inject_Z 10 ^ 0)%Q with 1%Q. rewrite E. ring.
  Qed.
  Lemma not_nan s v : decimal_text s v -> s <> nan_text.
  Proof. intros [l (_ & D)|l D|l D] E; unfold nan_text in E; try discriminate. subst l. inversion D; lia. Qed.

  Lemma digit_string_dec s : digit_string s \/ ~ digit_string s.
  Proof.
    destruct s as [|c s]; [right; intros (H & _); congruence|]. destruct (Forall_dec (fun c => 48 <= c <= 57) ltac:(intros x; destruct (Z_le_dec 48 x), (Z_le_dec x 57); try (left; lia); right; lia) (c :: s)) as [H|H].
    - left. split; [discriminate|exact H].
    - right. intros (_ & H'). exact (H H').
  Qed.
  Lemma dec_text_dec s : (exists v, decimal_text s v) \/ ~ (exists v, decimal_text s v).
  Proof.
    destruct (digit_string_dec s) as [H|H]; [left; eexists; constructor; exact H|]. destruct s as [|c s]; [right; intros (v & D); inversion D; subst; apply H; assumption|].
    destruct (digit_string_dec s) as [H'|H'].
    - destruct (Z.eq_dec c 43) as [->|N1]; [left; eexists; apply dt_plus, H'|]. destruct (Z.eq_dec c 45) as [->|N2]; [left; eexists; apply dt_minus, H'|].
      right. intros (v & D). inversion D; subst; congruence.
    - right. intros (v & D). inversion D; subst; contradiction.
  Qed.
  (** the text of an integer, read as an integer *)
  Lemma string_int s v k o : decimal_text s v -> (is_signed k = true \/ digit_string s) ->
    (in_type k v -> via64 k (fun _ => if is_signed k then string_to_int64 s else string_to_uint64 s) o = (None, v)) /\
    (~ in_type k v -> fst (via64 k (fun _ => if is_signed k then string_to_int64 s else string_to_uint64 s) o) <> None).
  Proof.
    intros D HS. set (c64 := if is_signed k then string_to_int64 s else string_to_uint64 s).
    assert (X : (in_type (k64 (is_signed k)) v -> c64 = (None, v)) /\ (~ in_type (k64 (is_signed k)) v -> fst c64 <> None)).
    { unfold c64. destruct (is_signed k) eqn:SG; cbn [k64].
      - destruct (C78_string_to_int64 s) as (A & B & _). split; [apply A, D|]. intros N. rewrite (B v D N). discriminate.
      - destruct HS as [HS|HS]; [discriminate|]. assert (EV : v = in_base_ten s).
        { destruct D as [l D|l D|l D]; [reflexivity| |]; destruct HS as (_ & HS); inversion HS; subst; lia. }
        assert (NN : 0 <= v) by (rewrite EV; destruct HS as (_ & HS); apply (b10_nonneg s 0); [lia|exact HS]).
        destruct (C78_string_to_uint64 s) as (A & B & _). unfold in_type. cbn [lo_of hi_of is_signed num_bits]. rewrite EV in *. split.
        + intros I. apply A; [exact HS|]. unfold in_type in I. cbn in I. lia.
        + intros N. rewrite B; [discriminate|exact HS|]. unfold in_type in N. cbn in N. lia. }
    destruct X as (X1 & X2). unfold via64. fold c64.
    destruct (in_type_dec (k64 (is_signed k)) v) as [I|I].
    - rewrite (X1 I). destruct (to_int_exact (k64 (is_signed k)) k v o I) as (r & ER & EX).
      destruct k; cbn [is_signed k64] in *; try (split; [reflexivity|intros N; destruct (N I)]);
        cbn in ER; injection ER as <-; (split; [apply EX|intros N; apply EX in N; apply N]).
    - split; [intros T; destruct (I (in_type_64 _ _ T))|]. intros _. specialize (X2 I). destruct c64 as [[e|] x]; [|cbn in X2; congruence].
      destruct k; cbn; discriminate.
  Qed.

  (** the type [t] has the number [q] *)
  Notation has t q := (exists w, well_typed t w /\ number w q).

  Lemma denotes_eq x q q' : (q == q')%Q -> denotes x q -> denotes x q'.
  Proof. destruct x; cbn; try contradiction. intros E D. rewrite <- E. exact D. Qed.
  Lemma has_float f v : (has (TF f) (inject_Z v)) <-> representable (fmt_of f) (inject_Z v).
  Proof.
    split.
    - intros ([|x| | | | |] & W & N); cbn in W, N; try contradiction; exists x; split; assumption.
    - intros (x & W & N). exists (VF x). split; assumption.
  Qed.
  Lemma prec1 (s : list Z) : 1 <= Z.max 53 (Z.log2_up (10 ^ Z.of_nat (List.length s))).
  Proof. lia. Qed.

  (** C109. The text of an integer (in decimal, with or without a sign, leading zeros or not), read with conv.To as any numeric type: *)
  Theorem C109_text_to t s v o : numeric t -> out_typed t o -> decimal_text s v -> Z.log2 (Z.abs v) < 2 ^ 31 - 1 ->
    (forall k, t = TI k -> is_signed k = false -> digit_string s) ->
    (has t (inject_Z v) -> exists w, To TString t (VS s) o = Done (None, w) /\ well_typed t w /\ number w (inject_Z v)) /\
    (~ (has t (inject_Z v)) -> exists e r, To TString t (VS s) o = Done (Some e, r)).
  Proof.
    intros NT OT D L U. destruct (decimal_numeral s v D) as (neg & m & N & EV & NV).
    destruct (nat_lit s neg m v N EV L) as (n & d & EP & Hn & Hd & EQ). pose proof (not_nan s v D) as NN. pose proof (text_prec s v D) as SH.
    assert (SH' : short 2 (Z.max 53 (Z.log2_up (10 ^ Z.of_nat (List.length s)))) (if neg then - fr n d else fr n d)) by (destruct SH as (a & b & H1 & H2); exists a, b; split; [exact H1|rewrite EQ; exact H2]).
    destruct t as [k|f| | | |]; [| | | | |destruct (NT eq_refl)].
    - destruct o; cbn in OT; try contradiction. cbn [to].
      destruct (string_int s v k z D) as (A & B). { destruct (is_signed k) eqn:SG; [left; reflexivity|right; apply (U k eq_refl SG)]. }
      assert (HI : has (TI k) (inject_Z v) <-> in_type k v).
      { split; [|intros I; exists (VI v); split; [exact I|reflexivity]]. intros ([z'| | | | | |] & W & E); cbn in W, E; try contradiction. apply (proj1 (inject_Z_injective v z')) in E. rewrite E. exact W. }
      split.
      + intros H. apply HI in H. rewrite (A H). exists (VI v). split; [reflexivity|]. split; [exact H|reflexivity].
      + intros H. assert (NI : ~ in_type k v) by (intros I; apply H, HI, I). specialize (B NI).
        destruct (via64 _ _ _) as [[e|] r]; [|cbn in B; congruence]. eexists _, _. reflexivity.
    - destruct o; cbn in OT; try contradiction. cbn [to].
      destruct (C79_string_to_float float_parse f s x neg n d NN EP Hn Hd) as (y & Y & X1 & X2).
      pose proof (nearest_short_exact _ _ _ _ Y SH') as EY. rewrite EQ in EY. rewrite has_float. split.
      + intros (z & Z1 & Z2). destruct X1 as (E1 & E2 & E3). { exists z. split; [exact Z1|]. apply (denotes_eq z _ _ (Qeq_sym _ _ EY) Z2). }
        destruct (string_to_float _ _ _ _) as [e r]. cbn [fst snd] in *. subst e. exists (VF r). split; [reflexivity|]. split; [exact E2|]. apply (denotes_eq r _ _ EY E3).
      + intros H. destruct X2 as (E1 & _). { intros (z & Z1 & Z2). apply H. exists z. split; [exact Z1|]. apply (denotes_eq z _ _ EY Z2). }
        destruct (string_to_float _ _ _ _) as [[e|] r]; [|cbn in E1; congruence]. eexists _, _. reflexivity.
    - cbn [to]. rewrite (proj1 (C78_string_to_bigint s) v D). split.
      + intros _. exists (VBigInt v). split; [reflexivity|]. split; [exact Logic.I|reflexivity].
      + intros H. destruct H. exists (VBigInt v). split; [exact Logic.I|reflexivity].
    - cbn [to]. unfold string_to_bigfloat. rewrite EP. destruct (round_literal_ok _ neg n d (prec1 s) Hn Hd) as (y & Dy & My & Ny).
      pose proof (nearest_short_exact _ _ _ _ Ny SH') as EY. rewrite EQ in EY. apply (denotes_eq _ _ _ EY) in Dy.
      assert (W : well_typed TBigFloat (VBigFloat (round_literal (string_bits (List.length s)) (LNum neg n d)))).
      { change (string_bits (List.length s)) with (Z.max 53 (Z.log2_up (10 ^ Z.of_nat (List.length s)))). split; [intros E; rewrite E in Dy; exact Dy|exact My]. }
      split.
      + intros _. eexists. split; [reflexivity|]. split; [exact W|exact Dy].
      + intros H. destruct H. eexists. split; [exact W|exact Dy].
    - cbn [to]. assert (RR : rat_range m 0 10 0) by (unfold rat_range; cbn; lia).
      pose proof (proj1 (C94_string_to_bigrat s neg m 0 10 0 N int64_0) RR) as ER. unfold string_to_bigrat in ER.
      destruct (rat_set_string s) as [q|]; [|discriminate]. assert (EQ' : q = Qred (numeral_value neg m 0 10 0)) by congruence.
      assert (W : well_typed TBigRat (VBigRat q) /\ number (VBigRat q) (inject_Z v)).
      { rewrite EQ'. split; [apply Qred_complete, Qred_correct|]. cbn [number]. rewrite Qred_correct. symmetry. exact NV. }
      split.
      + intros _. eexists. split; [reflexivity|exact W].
      + intros H. destruct H. eexists. exact W.
  Qed.
  (** An integer written with conv.To and read with conv.To as any numeric type: the same number if the type has it, else an error. *)
  Theorem C109_through_text s t v z o1 o2 : (exists k, s = TI k) \/ s = TBigInt -> numeric t -> out_typed t o2 ->
    well_typed s v -> number v (inject_Z z) -> Z.log2 (Z.abs z) < 2 ^ 31 - 1 ->
    exists text, To s TString v o1 = Done (None, VS text) /\
    (has t (inject_Z z) -> exists w, To TString t (VS text) o2 = Done (None, w) /\ well_typed t w /\ number w (inject_Z z)) /\
    (~ (has t (inject_Z z)) -> exists e r, To TString t (VS text) o2 = Done (Some e, r)).
  Proof.
    intros HS NT OT WV NV L. exists (integer_to_string z). split.
    { destruct HS as [(k & ->)| ->]; destruct v; cbn in WV, NV; try contradiction; apply (proj1 (inject_Z_injective z _)) in NV; subst; reflexivity. }
    destruct (Z_lt_ge_dec z 0) as [NEG|POS].
    - assert (C : (exists k, t = TI k /\ is_signed k = false) \/ (forall k, t = TI k -> is_signed k = false -> digit_string (integer_to_string z))).
      { destruct t as [k| | | | |]; try (right; intros; discriminate). destruct (is_signed k) eqn:SG; [right; intros ? [= <-]; congruence|left; eauto]. }
      destruct C as [(k & -> & SG)|C]; [|apply C109_text_to; try assumption; apply int_to_string_text].
      destruct o2; cbn in OT; try contradiction. split.
      + intros ([z'| | | | | |] & W & E); cbn in W, E; try contradiction. apply (proj1 (inject_Z_injective z z')) in E. subst z'. unfold in_type in W. rewrite SG in W. lia.
      + intros _. cbn [to]. rewrite SG. assert (NT' : ~ digit_string (integer_to_string z)).
        { assert (K : forall l0, decimal_text l0 z -> digit_string l0 -> False); [|exact (K _ (int_to_string_text z))].
          intros l0 T (_ & H). destruct T as [l D|l D|l D]; try (inversion H; lia).
          destruct D as (_ & D). pose proof (b10_nonneg l 0 ltac:(lia) D) as X. change (b10 0 l) with (in_base_ten l) in X. lia. }
        rewrite (proj2 (proj2 (C78_string_to_uint64 _)) NT'). destruct k; try discriminate; eexists _, _; reflexivity.
    - apply C109_text_to; try assumption; [apply int_to_string_text|]. intros k _ _. apply (string_digits z ltac:(lia)).
  Qed.

  Lemma classic_has t z : numeric t -> (has t (inject_Z z)) \/ ~ (has t (inject_Z z)).
  Proof.
    intros NT. destruct t as [k|f| | | |]; [| | | | |destruct (NT eq_refl)].
    - destruct (in_type_dec k z) as [I|I]; [left; exists (VI z); split; [exact I|reflexivity]|right].
      intros ([z'| | | | | |] & W & E); cbn in W, E; try contradiction. apply (proj1 (inject_Z_injective z z')) in E. subst z'. exact (I W).
    - rewrite has_float. apply rep_dec.
    - left. exists (VBigInt z). split; [exact Logic.I|reflexivity].
    - left. exists (VBigFloat (Fin (z <? 0) (Z.abs z) 0)). split; [split; [discriminate|lia]|]. cbn [number denotes].
      destruct (z <? 0) eqn:C; unfold digits; change (inject_Z 2 ^ 0)%Q with 1%Q; [replace (Z.abs z) with (- z) by lia; rewrite ?inject_Z_opp; ring|replace (Z.abs z) with z by lia; ring].
    - left. exists (VBigRat (inject_Z z)). split; [apply Qred_int|reflexivity].
  Qed.

  (** So the way over the text agrees with the direct conversion, except for the pairs of types for which that one is lossy ... *)
  Theorem C109_same_as_direct s t v z o1 o2 o3 : oor_representable oor -> (exists k, s = TI k) \/ s = TBigInt -> numeric t -> ~ lossy s t ->
    out_typed t o2 -> out_typed t o3 -> well_typed s v -> number v (inject_Z z) -> Z.log2 (Z.abs z) < 2 ^ 31 - 1 ->
    exists text e1 r1 e2 r2, To s TString v o1 = Done (None, VS text) /\
      To TString t (VS text) o2 = Done (e1, r1) /\ To s t v o3 = Done (e2, r2) /\
      (e1 = None <-> e2 = None) /\ (e1 = None -> number r1 (inject_Z z) /\ number r2 (inject_Z z)).
  Proof.
    intros OOR HS NT NL O2 O3 WV NV L. destruct (C109_through_text s t v z o1 o2 HS NT O2 WV NV L) as (text & ET & A & B). exists text.
    assert (NS : numeric s) by (destruct HS as [(k & ->)| ->]; discriminate).
    destruct (C80_to_total oor float_parse float_to_string bigfloat_to_string rat_set_string s t v o3 WV O3) as (e2 & r2 & ED).
    destruct (C80_to_total oor float_parse float_to_string bigfloat_to_string rat_set_string TString t (VS text) o2 Logic.I O2) as (e1 & r1 & ETx).
    exists e1, r1, e2, r2. split; [exact ET|]. split; [exact ETx|]. split; [exact ED|].
    assert (P1 : e1 = None -> well_typed t r1 /\ number r1 (inject_Z z)).
    { intros ->. assert (HH : has t (inject_Z z)).
      { destruct (classic_has t z NT) as [H|H]; [exact H|]. destruct (B H) as (e & r & E). congruence. }
      destruct (A HH) as (w & E & W). rewrite ETx in E. injection E as ->. exact W. }
    assert (P2 : e2 = None -> well_typed t r2 /\ number r2 (inject_Z z)).
    { intros ->. destruct (C80_to_preserves _ _ _ _ _ _ _ _ _ _ OOR WV O3 NS NT NL ED) as (W & Sm & _). split; [exact W|apply Sm, NV]. }
    split; [|intros E; split; [apply P1, E|]].
    - split; intros E.
      + destruct (P1 E) as (W & N). destruct (C80_to_complete oor float_parse float_to_string bigfloat_to_string rat_set_string s t v o3 r1 (inject_Z z) WV O3 NS NT NL NV W N) as (r & E'). congruence.
      + destruct (P2 E) as (W & N). destruct (A (ex_intro _ r2 (conj W N))) as (w & E' & _). congruence.
    - destruct (P1 E) as (W & N). destruct (C80_to_complete oor float_parse float_to_string bigfloat_to_string rat_set_string s t v o3 r1 (inject_Z z) WV O3 NS NT NL NV W N) as (r & E'). apply P2. congruence.
  Qed.
  (** ... namely (finding) from uint and uint64 to *big.Float and from *big.Int to float32: there the direct conversion changes the
      number in silence, while the text keeps it, or is refused. *)
  Theorem C109_text_better_refuted o1 :
    (exists r, To (TI KUint64) TBigFloat (VI (2 ^ 53 + 1)) VUnspec = Done (None, r) /\ number r (inject_Z (2 ^ 53))) /\
    To (TI KUint64) TString (VI (2 ^ 53 + 1)) o1 = Done (None, VS (str "9007199254740993")) /\
    (exists r, To TString TBigFloat (VS (str "9007199254740993")) VUnspec = Done (None, r) /\ number r (inject_Z (2 ^ 53 + 1))) /\
    (exists r, To TBigInt (TF S32) (VBigInt (2 ^ 24 + 1)) (VF NaN) = Done (None, r) /\ number r (inject_Z (2 ^ 24))) /\
    To TBigInt TString (VBigInt (2 ^ 24 + 1)) o1 = Done (None, VS (str "16777217")) /\
    (exists e r, To TString (TF S32) (VS (str "16777217")) (VF NaN) = Done (Some e, r)).
  Proof.
    repeat split; try (eexists; split; [vm_compute; reflexivity|reflexivity]); try (vm_compute; reflexivity).
    eexists _, _. vm_compute. reflexivity.
  Qed.

  (** A *big.Rat is read back from its text ... *)
  Theorem C109_ratio_text q o1 o2 : Qred q = q ->
    exists text, To TBigRat TString (VBigRat q) o1 = Done (None, VS text) /\ To TString TBigRat (VS text) o2 = Done (None, VBigRat q).
  Proof.
    intros R. exists (bigrat_to_string q). split; [reflexivity|]. pose proof (C95_bigrat_round_trip q R) as E. unfold string_to_bigrat in E. cbn [to].
    destruct (rat_set_string (bigrat_to_string q)) as [x|]; [|discriminate]. assert (x = q) by congruence. subst. reflexivity.
  Qed.
  (** ... but (finding) no other numeric type reads it, though it is an integer that all of them have (its text ends in "/1"). *)
  Theorem C109_ratio_text_refuted q t o1 o2 : numeric t -> t <> TBigRat -> out_typed t o2 ->
    exists text, To TBigRat TString (VBigRat q) o1 = Done (None, VS text) /\ exists e r, To TString t (VS text) o2 = Done (Some e, r).
  Proof.
    intros NT NR OT. exists (bigrat_to_string q). split; [reflexivity|]. set (s := bigrat_to_string q).
    assert (SL : In 47 s) by (unfold s, bigrat_to_string; apply in_or_app; right; left; reflexivity).
    assert (ND : forall l, digit_string l -> ~ In 47 l). { intros l (_ & D) I. rewrite Forall_forall in D. specialize (D _ I). lia. }
    assert (NT' : ~ exists v, decimal_text s v).
    { intros (v & D). destruct D as [l D|l D|l D]; [destruct (ND l D SL)| |]; destruct SL as [E|SL]; try discriminate; destruct (ND l D SL). }
    assert (NP : float_parse s = None).
    { destruct (float_parse s) as [l|] eqn:E; [|reflexivity]. destruct (float_parse_only s l E) as [(neg & A & _)|(neg & m & f & b & x & A & _)].
      - destruct neg; cbn in A; decompose [or] A; match goal with H : s = _ |- _ => rewrite H in SL end; cbn in SL; decompose [or] SL; try discriminate; contradiction.
      - destruct (no_slash_numeral _ _ _ _ _ _ A SL). }
    assert (NN : s <> nan_text) by (intros E; rewrite E in SL; cbn in SL; decompose [or] SL; try discriminate; contradiction).
    destruct t as [k|f| | | |]; [| | | | |destruct (NT eq_refl)]; cbn [to].
    - destruct o2; cbn in OT; try contradiction. destruct (is_signed k) eqn:SG.
      + rewrite (proj2 (proj2 (C78_string_to_int64 s)) NT'). destruct k; try discriminate; eexists _, _; reflexivity.
      + rewrite (proj2 (proj2 (C78_string_to_uint64 s)) (fun H => ND s H SL)). destruct k; try discriminate; eexists _, _; reflexivity.
    - destruct o2; cbn in OT; try contradiction. rewrite (proj2 (proj2 (C79_special float_parse f s x)) NN NP). eexists _, _. reflexivity.
    - pose proof (proj2 (C78_string_to_bigint s) NT') as F. destruct (string_to_bigint s) as [[e|] [z|]]; cbn in F; try congruence; eexists _, _; reflexivity.
    - unfold string_to_bigfloat. rewrite NP. eexists _, _. reflexivity.
    - destruct (NR eq_refl).
  Qed.
  (** A text that an integer type or *big.Int accepts is a decimal text, so by the above every type that has the number reads the same number ... *)
  Theorem C109_integers_accept_decimal t s o w : (exists k, t = TI k) \/ t = TBigInt -> out_typed t o -> To TString t (VS s) o = Done (None, w) ->
    exists v, decimal_text s v /\ number w (inject_Z v).
  Proof.
    intros HT OT E. assert (DEC : (exists v, decimal_text s v) \/ ~ (exists v, decimal_text s v)).
    { destruct (string_to_bigint s) as [[e|] x] eqn:EB.
      - right. intros (v & D). rewrite (proj1 (C78_string_to_bigint s) v D) in EB. discriminate.
      - left. destruct (dec_text_dec s) as [H|H]; [exact H|]. pose proof (proj2 (C78_string_to_bigint s) H) as F. rewrite EB in F. cbn in F. congruence. }
    destruct DEC as [(v & D)|ND].
    - exists v. split; [exact D|]. destruct HT as [(k & ->)| ->].
      + destruct o; cbn in OT; try contradiction. cbn [to] in E.
        assert (SG : is_signed k = true \/ digit_string s).
        { destruct (is_signed k) eqn:SG; [left; reflexivity|right]. destruct (digit_string_dec s) as [H|H]; [exact H|exfalso].
          rewrite (proj2 (proj2 (C78_string_to_uint64 s)) H) in E. destruct k; try discriminate; cbn in E; discriminate. }
        destruct (string_int s v k z D SG) as (A & B). destruct (in_type_dec k v) as [I|I].
        * rewrite (A I) in E. injection E as <-. reflexivity.
        * specialize (B I). destruct (via64 _ _ _) as [[e|] r]; [discriminate|cbn in B; congruence].
      + cbn [to] in E. rewrite (proj1 (C78_string_to_bigint s) v D) in E. injection E as <-. reflexivity.
    - exfalso. destruct HT as [(k & ->)| ->].
      + destruct o; cbn in OT; try contradiction. cbn [to] in E. destruct (is_signed k) eqn:SG.
        * rewrite (proj2 (proj2 (C78_string_to_int64 s)) ND) in E. destruct k; try discriminate; cbn in E; discriminate.
        * assert (H : ~ digit_string s) by (intros H; apply ND; exists (in_base_ten s); constructor; exact H).
          rewrite (proj2 (proj2 (C78_string_to_uint64 s)) H) in E. destruct k; try discriminate; cbn in E; discriminate.
      + cbn [to] in E. pose proof (proj2 (C78_string_to_bigint s) ND) as F. destruct (string_to_bigint s) as [[e|] [x|]]; cbn in F; congruence.
  Qed.
  (** ... but (finding) not the other way round: floats, *big.Float and *big.Rat take "1e2" and "100.0" for a hundred, which the integer types
      refuse, and the unsigned types refuse "+100". *)
  Theorem C109_other_texts_refuted :
    Forall (fun s => (exists r, To TString (TF S64) (VS s) (VF NaN) = Done (None, r) /\ number r 100%Q) /\
                     (exists r, To TString TBigFloat (VS s) VUnspec = Done (None, r) /\ number r 100%Q) /\
                     (exists r, To TString TBigRat (VS s) VUnspec = Done (None, r) /\ number r 100%Q) /\
                     (exists e r, To TString (TI KInt) (VS s) (VI 0) = Done (Some e, r)) /\
                     (exists e r, To TString TBigInt (VS s) VUnspec = Done (Some e, r))) [str "1e2"; str "100.0"] /\
    To TString (TI KInt) (VS (str "+100")) (VI 0) = Done (None, VI 100) /\ (exists e r, To TString (TI KUint) (VS (str "+100")) (VI 0) = Done (Some e, r)).
  Proof.
    split; [|split; [vm_compute; reflexivity|eexists _, _; vm_compute; reflexivity]].
    repeat (apply Forall_cons || apply Forall_nil);
      (split; [eexists; split; [vm_compute; reflexivity|reflexivity]|]; split; [eexists; split; [vm_compute; reflexivity|reflexivity]|];
       split; [eexists; split; [vm_compute; reflexivity|reflexivity]|]; split; eexists _, _; vm_compute; reflexivity).
  Qed.

  Example C109_nonvacuous : decimal_text (str "-0012") (-12) /\ Z.log2 (Z.abs (-12)) < 2 ^ 31 - 1 /\ ~ lossy TBigInt (TI KInt8) /\
    To TString (TI KInt8) (VS (str "-0012")) (VI 0) = Done (None, VI (-12)) /\
    To TString (TF S32) (VS (str "-0012")) (VF NaN) = Done (None, VF (Fin true (12 * 2 ^ 20) (-20))) /\
    To TString TBigRat (VS (str "-0012")) VUnspec = Done (None, VBigRat (- 12 # 1)) /\
    To TBigInt TString (VBigInt 300) VUnspec = Done (None, VS (str "300")) /\
    (exists e, To TString (TI KInt8) (VS (str "300")) (VI 7) = Done (Some e, VI 7)) /\ (exists e, To TBigInt (TI KInt8) (VBigInt 300) (VI 7) = Done (Some e, VI 7)) /\
    To TBigRat TString (VBigRat 5) VUnspec = Done (None, VS (str "5/1")).
  Proof.
    split. { apply (dt_minus (str "0012")). split; [discriminate|]. vm_compute str. repeat constructor; lia. }
    split; [reflexivity|]. split; [intros H; exact H|]. repeat split; try (vm_compute; reflexivity); eexists; vm_compute; reflexivity.
  Qed.
End Texts.
Print Assumptions C109_text_to.
Print Assumptions C109_through_text.
Print Assumptions C109_same_as_direct.
Print Assumptions C109_text_better_refuted.
Print Assumptions C109_ratio_text.
Print Assumptions C109_ratio_text_refuted.
Print Assumptions C109_integers_accept_decimal.
Print Assumptions C109_other_texts_refuted.
