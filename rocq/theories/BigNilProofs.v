From Coq Require Import ZArith List QArith Qabs Qpower Lia Lqa.
From Verif Require Import Base Conv Float FloatSpec FloatProofs FloatProofs2 ConvFloat ConvFloatSpec ConvFloatProofs ConvFloatProofs2 ConvFloatProofs3 ConvFloatProofs4 Decimal Literal LiteralSpec LiteralProofs LiteralProofs2 LiteralProofs3 BigNil BigNilSpec.
Close Scope Q_scope.
Open Scope Z_scope.
Open Scope go_scope.
Import ListNotations.

Lemma float_parse_int_numeral s neg m : numeral s neg m 0 10 0 ->
  float_parse s = if (m =? 0) || (Z.log2 m + 1 <=? 2 ^ 31 - 1) then Some (LNum neg m 1) else None.
Proof.
  intros H. destruct (numeral_inv _ _ _ _ _ _ H) as (a & t & E & M & X & N & I1 & I2).
  assert (R : int64 0) by (split; vm_compute; congruence).
  destruct (float_parse_cases s) as [(n & I & _)|(_ & _ & ->)]; [destruct n; tauto|].
  unfold float_parse_main. rewrite E, nat_scan10_false, (scan_mantissa false a m 0 t M (exponent_stops _ _ _ _ X)), (scan_exp_ok false t 10 0 X R).
  destruct (mantissa_nonneg _ _ _ M) as [Hm _]. pose proof (Z.log2_nonneg m).
  replace (Z.log2 m + 1 - 0 + 0) with (Z.log2 m + 1) by lia. rewrite (proj2 (Z.leb_le (- 2 ^ 31) _)) by lia.
  destruct (m =? 0) eqn:Z0; [apply Z.eqb_eq in Z0; subst m; reflexivity|]. cbn [negb andb orb].
  destruct (Z.log2 m + 1 <=? 2 ^ 31 - 1); [|reflexivity]. cbn [negb]. unfold pow_nd. cbn [Z.leb Z.compare]. repeat f_equal; cbn; lia.
Qed.
Lemma int_numeral z : numeral (int_to_string z) (z <? 0) (Z.abs z) 0 10 0.
Proof.
  unfold int_to_string. destruct (z <? 0) eqn:S.
  - apply Z.ltb_lt in S. destruct (dec_string (- z) ltac:(lia)) as (A & B).
    replace (Z.abs z) with (in_base_ten (map chr (dec (- z)))) by (rewrite B; lia).
    rewrite <- (app_nil_r (map chr (dec (- z)))) at 1. apply (num_minus _ []); constructor. exact A.
  - apply Z.ltb_ge in S. destruct (dec_string z S) as (A & B).
    replace (Z.abs z) with (in_base_ten (map chr (dec z))) by (rewrite B; lia).
    rewrite <- (app_nil_r (map chr (dec z))) at 1. apply (num_plain _ []); constructor. exact A.
Qed.
Lemma small_log z : (Z.abs z =? 0) || (Z.log2 (Z.abs z) + 1 <=? 2 ^ 31 - 1) = (Z.log2 (Z.abs z) <? 2 ^ 31 - 1).
Proof.
  destruct (Z.eqb_spec (Z.abs z) 0) as [E|E]; cbn [orb]; [rewrite E; reflexivity|]. destruct (Z.ltb_spec (Z.log2 (Z.abs z)) (2 ^ 31 - 1)); [apply Z.leb_le|apply Z.leb_gt]; lia.
Qed.
Lemma p_bigint_some z : p_bigint_to_bigfloat (Some z) = if Z.log2 (Z.abs z) <? 2 ^ 31 - 1 then Some (bigint_to_bigfloat z) else None.
Proof.
  unfold p_bigint_to_bigfloat, string_to_bigfloat, int_text, integer_to_string. rewrite (float_parse_int_numeral _ _ _ (int_numeral z)), small_log.
  destruct (_ <? _); reflexivity.
Qed.
Lemma p_bigint_none : p_bigint_to_bigfloat None = None.
Proof. reflexivity. Qed.

Section To.
  Context (oor : ikind -> float -> Z) (ff : fsize -> float -> list Z).
  Notation TO := (to oor float_parse ff bigfloat_to_string rat_set_string).
  Notation TN := (to_nil oor ff).
  Definition plain (t : gtype) : Prop := match t with TI _ | TF _ | TString => True | _ => False end.

  Lemma fits_held t o w : fits t o -> held o w -> plain t -> o = NVal w /\ ConvFloatSpec.well_typed t w.
  Proof. intros F H P. destruct t; try contradiction; destruct o; cbn in F; try contradiction; rewrite (H v eq_refl); auto. Qed.

  Lemma nil_converted s t i o : nil_of s i -> fits t o -> s <> t ->
    TN s t i o = match s, t with TBigInt, TString => Done (None, NVal (VS nil_written)) | TBigInt, TBigFloat => Done (None, NFlt None) | _, _ => Panicked end.
  Proof.
    intros N F D. destruct s; try contradiction; destruct i as [[|]|[|]|[|]|]; try contradiction; destruct t as [k|[]| | | |]; try congruence; destruct o as [| | |v]; cbn in F; try contradiction;
      try (destruct v; try contradiction); try reflexivity.
  Qed.
  Lemma nil_same s i o : nil_of s i -> TN s s i o = Done (None, i).
  Proof. intros N. destruct s; try contradiction; destruct i as [[|]|[|]|[|]|]; try contradiction; reflexivity. Qed.

  Definition bits_ok (g : gval) : Prop := forall z, g = VBigInt z -> Z.log2 (Z.abs z) < 2 ^ 31 - 1.
  Lemma bigint_bits z : bits_ok (VBigInt z) -> p_bigint_to_bigfloat (Some z) = Some (bigint_to_bigfloat z).
  Proof. intros B. rewrite p_bigint_some. rewrite (proj2 (Z.ltb_lt _ _) (B z eq_refl)). reflexivity. Qed.
  Lemma p_float z f : bits_ok (VBigInt z) -> p_bigint_to_float f (Some z) = Done (bigint_to_float f z).
  Proof. intros B. unfold p_bigint_to_float. rewrite (bigint_bits z B). unfold bigint_to_float, on. cbn [deref obind]. destruct (bigfloat_float f (bigint_to_bigfloat z)). reflexivity. Qed.

  Lemma bigfloat_none l : string_to_bigfloat float_parse l = (None, None) -> False.
  Proof. unfold string_to_bigfloat. destruct (float_parse l); discriminate. Qed.
  Lemma bigint_none l : string_to_bigint l = (None, None) -> False.
  Proof.
    unfold string_to_bigint. destruct l as [|c l]; [discriminate|]. destruct (if c =? 43 then (false, l) else if c =? 45 then (true, l) else (false, c :: l)) as [neg body].
    destruct body; [discriminate|]. destruct (forallb Decimal.is_digit (z :: body)); discriminate.
  Qed.
  Lemma agrees s t i o g w : ConvFloatSpec.well_typed s g -> value_is i g -> fits t o -> held o w -> bits_ok g -> ~ (s = TBigFloat /\ t = TBigRat) ->
    exists e r v, TO s t g w = Done (e, r) /\ TN s t i o = Done (e, v) /\ (e = None \/ plain t -> (plain t -> ConvFloatSpec.well_typed t r) -> value_is v r).
  Proof.
    intros W V F H B N.
    assert (O : out_typed t w). { destruct t; try exact I; destruct (fits_held _ _ _ F H I) as [_ X]; exact X. }
    destruct (to_total oor float_parse ff bigfloat_to_string rat_set_string s t g w W O) as (e & r & T). exists e, r.
    assert (J : forall v, TN s t i o = Done (e, v) -> (e = None \/ plain t -> (plain t -> ConvFloatSpec.well_typed t r) -> value_is v r) ->
      exists v, TO s t g w = Done (e, r) /\ TN s t i o = Done (e, v) /\ (e = None \/ plain t -> (plain t -> ConvFloatSpec.well_typed t r) -> value_is v r)) by eauto.
    assert (PV : forall x, plain t -> ConvFloatSpec.well_typed t x -> value_is (NVal x) x).
    { intros x P X. split; [reflexivity|]. destruct t; try contradiction; destruct x; cbn in X; try contradiction; exact I. }
    assert (CP : plain s -> i = NVal g).
    { intros P. destruct i as [p|p|p|v]; cbn in V; try (destruct V as (y & -> & ->); destruct s; cbn in W; contradiction). destruct V as [-> _]. reflexivity. }
    assert (PP : plain s -> plain t -> TN s t i o = Done (e, NVal r)).
    { intros P Q. rewrite (CP P). destruct (fits_held _ _ _ F H Q) as [-> _]. destruct s; try contradiction; destruct t; try contradiction; cbn [to_nil]; try (rewrite T; reflexivity).
      all: destruct g; cbn in W; try contradiction; cbn [to_nil]; rewrite T; reflexivity. }
    destruct s, t; try (exfalso; apply N; split; reflexivity).
    all: try (eapply J; [apply PP; exact I|intros _ X; apply PV; [exact I|exact (X I)]]).
    all: destruct g; cbn in W; try contradiction; destruct i as [p|p|p|x0]; cbn in V; try (destruct V as [-> []]); try (destruct V as (y & -> & [= <-])); try (destruct V as (? & _ & ?); discriminate); try (destruct V as [<- _]).
    all: try (destruct (fits_held _ _ _ F H I) as [-> WW]; destruct w; try contradiction).
    all: clear J PV CP PP.
    all: try match goal with T : to _ _ _ _ _ (TF ?s) _ _ _ = _ |- _ => is_var s; destruct s | T : to _ _ _ _ _ _ (TF ?s) _ _ = _ |- _ => is_var s; destruct s end.
    all: cbn [to] in T |- *; unfold to_nil, on, ok_i, ok_f, lift_i, lift_f in *; cbn [deref obind to] in *; try rewrite (p_float _ _ B); try rewrite (bigint_bits _ B); cbn [obind].
    all: try match goal with T : context [float_to_bigint ?x 0] |- _ => destruct (float_to_bigint x 0) as [[?|] ?] | T : context [bigfloat_to_bigint ?x 0] |- _ => destruct (bigfloat_to_bigint x 0) as [[?|] ?]
      | T : context [bigrat_to_bigint ?x 0] |- _ => destruct (bigrat_to_bigint x 0) as [[?|] ?] | T : context [float_to_bigfloat ?x ?y] |- _ => destruct (float_to_bigfloat x y) as [[?|] ?]
      | T : context [float_to_bigrat ?x ?y] |- _ => destruct (float_to_bigrat x y) as [[?|] ?] | T : context [string_to_bigint ?x] |- _ => destruct (string_to_bigint x) as [[?|] [?|]] eqn:SB
      | T : context [string_to_bigfloat ?x ?y] |- _ => destruct (string_to_bigfloat x y) as [[?|] [?|]] eqn:SB | T : context [rat_set_string ?y] |- _ => unfold string_to_bigrat; destruct (rat_set_string y) end.
    all: injection T as <- <-; eexists; split; [reflexivity|]; split; [reflexivity|].
    all: intros C X; first [split; [reflexivity|exact I] | eexists; split; reflexivity | destruct C as [C|C]; [discriminate|destruct C] | exfalso; revert SB; apply bigfloat_none | exfalso; revert SB; apply bigint_none].
  Qed.
End To.

Section More.
  Context (oor : ikind -> float -> Z) (ff : fsize -> float -> list Z).
  Notation TN := (to_nil oor ff).

  (** which conversions of a number give nil and no error *)
  Lemma nil_made s t i o g w v : ConvFloatSpec.well_typed s g -> value_is i g -> fits t o -> held o w -> TN s t i o = Done (None, v) -> ~ nil_of t o -> nil_of t v ->
    s = TBigFloat /\ t = TBigRat /\ (exists x, i = NFlt (Some x) /\ is_inf x = false /\ rat_set_string (bigfloat_to_string x) = None) \/
    s = TBigInt /\ t = TBigFloat /\ (exists z, i = NInt (Some z) /\ 2 ^ 31 - 1 <= Z.log2 (Z.abs z)).
  Proof.
    intros W V F H T NO N.
    destruct (match s, t with TBigFloat, TBigRat => true | _, _ => false end) eqn:Q.
    - destruct s; try discriminate; destruct t; try discriminate. left. split; [reflexivity|]. split; [reflexivity|]. destruct g; cbn in W; try contradiction.
      destruct i as [p|p|p|x0]; cbn in V; try (destruct V as [<- []]); try (destruct V as (y & -> & [= <-])); try (destruct V as (? & _ & ?); discriminate).
      destruct o as [| |b|]; cbn in F; try contradiction. exists x. split; [reflexivity|]. unfold to_nil, on, bigfloat_to_bigrat_text in T. cbn [deref obind] in T. destruct (is_inf x); [discriminate|]. split; [reflexivity|].
      injection T as <-. cbn in N. destruct (rat_set_string (bigfloat_to_string x)); [destruct N|reflexivity].
    - assert (NQ : ~ (s = TBigFloat /\ t = TBigRat)) by (intros [-> ->]; discriminate).
      assert (no_nil : bits_ok g -> s = TBigFloat /\ t = TBigRat /\ (exists x, i = NFlt (Some x) /\ is_inf x = false /\ rat_set_string (bigfloat_to_string x) = None) \/
        s = TBigInt /\ t = TBigFloat /\ (exists z, i = NInt (Some z) /\ 2 ^ 31 - 1 <= Z.log2 (Z.abs z))).
      { intros B. destruct (agrees oor ff s t i o g w W V F H B NQ) as (e & r & v' & _ & T2 & A). rewrite T in T2. injection T2 as <- <-. exfalso.
        assert (P : plain t -> False) by (destruct t; try (intros []; fail); destruct v as [[|]|[|]|[|]|]; contradiction).
        specialize (A (or_introl eq_refl) (fun p => match P p with end)). destruct t; try (destruct v as [[|]|[|]|[|]|]; contradiction); destruct v as [[|]|[|]|[|]|]; try contradiction; destruct A as (? & ? & _); discriminate. }
      destruct g as [z|x|z|x|q|l|].
      3:{ destruct s; cbn in W; try contradiction. destruct i as [p|p|p|x0]; cbn in V; try (destruct V as [<- []]); try (destruct V as (y & -> & [= <-])); try (destruct V as (? & _ & ?); discriminate).
          destruct (Z.leb_spec (2 ^ 31 - 1) (Z.log2 (Z.abs z))) as [L|L].
          + destruct t; try (destruct v as [[|]|[|]|[|]|]; contradiction); try discriminate.
            * cbn in T. injection T as <-. destruct N.
            * right. split; [reflexivity|]. split; [reflexivity|]. exists z. auto.
            * cbn in T. injection T as <-. destruct N.
          + apply no_nil. intros y [= <-]. exact L. }
      all: apply no_nil; discriminate.
  Qed.
End More.

(** ** Large numbers that become nil *)
Lemma nearest_large q y N : 0 <= N -> nearest_short 10 10 q y -> (inject_Z 10 ^ N <= q)%Q -> (inject_Z 10 ^ N <= y)%Q.
Proof.
  intros HN [_ H] L. assert (Sh : short 10 10 (inject_Z 10 ^ N)) by (exists 1, N; split; [lia|unfold digits; change (inject_Z 1) with 1%Q; ring]).
  specialize (H _ Sh). set (c := (inject_Z 10 ^ N)%Q) in *. rewrite (Qabs_pos (q - c)) in H by lra. apply Qabs_Qle_condition in H. lra.
Qed.
Lemma ten_nz' : ~ (inject_Z 10 == 0)%Q. Proof. discriminate. Qed.
Lemma less_mul (a b c m : Q) : (a <= b -> m < c -> 0 < a -> 0 < c -> m * a < b * c)%Q.
Proof. intros. nra. Qed.
Lemma huge_rat_nil x q o : nonneg_mantissa x -> denotes x q -> (inject_Z 10 ^ 1000011 <= q)%Q -> bigfloat_to_bigrat_text x o = (None, None).
Proof.
  intros Hm D L. assert (Fx : finite x) by (clear L; destruct x; cbn in *; tauto). destruct (ten_form x Hm) as (k & E & Ek & Hk).
  pose proof (ten_digits_spec x q Hm D) as T. pose proof (nearest_large q _ 1000011 ltac:(lia) T L) as G. destruct T as [(m & e & Hm10 & Em) _].
  assert (P : forall a b n, (inject_Z a * inject_Z 10 ^ b == inject_Z n)%Q -> True) by auto. clear P.
  assert (E1 : 1000001 <= e).
  { destruct (Z_lt_le_dec e 1000001) as [C|C]; [exfalso|exact C]. rewrite Em in G. unfold digits in G. revert G. apply Qlt_not_le.
    assert (P1 : (0 < inject_Z 10 ^ 1000001)%Q) by (apply Qpower_0_lt; reflexivity).
    assert (P2 : (inject_Z 10 ^ e <= inject_Z 10 ^ 1000001)%Q) by (apply Qpower_le_compat_l; [lia|discriminate]).
    assert (P3 : (inject_Z 10 ^ 1000011 == inject_Z 10 ^ 1000001 * inject_Z (10 ^ 10))%Q).
    { change 1000011 with (1000001 + 10). rewrite Qpower_plus by exact ten_nz'. apply Qmult_comp; [reflexivity|]. rewrite Zpower_Qpower by lia. reflexivity. }
    rewrite P3. assert (P4 : (0 < inject_Z 10 ^ e)%Q) by (apply Qpower_0_lt; reflexivity).
    assert (M : (inject_Z m < inject_Z (10 ^ 10))%Q) by (rewrite <- Zlt_Qlt; lia).
    apply less_mul; [exact P2|exact M|exact P4|reflexivity]. }
  assert (K0 : k <> 0).
  { intros ->. rewrite Ek in G. change (inject_Z 0) with 0%Q in G. rewrite Qmult_0_l in G. revert G. apply Qlt_not_le, Qpower_0_lt. reflexivity. }
  assert (E2 : e <= E).
  { destruct (Z_lt_le_dec E e) as [C|C]; [exfalso|exact C]. rewrite Em in Ek. unfold digits in Ek.
    replace e with (E + (e - E)) in Ek by lia. rewrite Qpower_plus in Ek by exact ten_nz'.
    assert (X : (inject_Z k == inject_Z (m * 10 ^ (e - E)))%Q).
    { rewrite inject_Z_mult, Zpower_Qpower by lia. apply (Qmult_inj_r _ _ (inject_Z 10 ^ E)); [apply Qpower_not_0, ten_nz'|]. rewrite <- Ek. ring. }
    apply (proj1 (inject_Z_injective _ _)) in X. destruct Hk as [Hk|Hk]; [|auto]. apply Hk. rewrite X. replace (e - E) with (1 + (e - E - 1)) by lia. rewrite Z.pow_add_r by lia.
    replace (m * (10 ^ 1 * 10 ^ (e - E - 1))) with (m * 10 ^ (e - E - 1) * 10) by ring. apply Z.mod_mul. lia. }
  destruct (float_text x k E Fx Hm Ek Hk) as [_ B]. unfold bigfloat_to_bigrat_text. destruct x; try destruct Fx. cbn [is_inf]. rewrite B; [reflexivity| |]; try lia; auto.
Qed.

Lemma gtype_eq (s t : gtype) : {s = t} + {s <> t}.
Proof. repeat decide equality. Defined.
Section Chain.
  Context (oor : ikind -> float -> Z) (ff : fsize -> float -> list Z).
  Notation TN := (to_nil oor ff).
  Lemma nil_text_read t o : t <> TString -> fits t o -> exists v, TN TString t (NVal (VS nil_written)) o = Done (Some conv_err, v).
  Proof.
    intros N F. destruct t as [k|[]| | | |]; try congruence; destruct o as [| | |v]; cbn in F; try contradiction; try (destruct v; try contradiction); try (destruct k); eexists; reflexivity.
  Qed.
  Lemma no_number_step s t i o : no_number s i -> fits t o ->
    TN s t i o = Panicked \/ (exists v, TN s t i o = Done (Some conv_err, v)) \/ (exists v, TN s t i o = Done (None, v) /\ no_number t v).
  Proof.
    intros [N|[-> ->]] F.
    - destruct (gtype_eq s t) as [<-|D].
      + right. right. exists i. split; [apply nil_same; exact N|left; exact N].
      + rewrite (nil_converted oor ff s t i o N F D). destruct s; try (left; reflexivity); destruct t; try (left; reflexivity); right; right; eexists; (split; [reflexivity|]); [left; exact I|right; auto].
    - destruct (gtype_eq t TString) as [->|D].
      + right. right. eexists. split; [destruct o; try destruct F; reflexivity|right; auto].
      + right. left. apply nil_text_read; assumption.
  Qed.
  Lemma zero_fits t : fits t (zero_of t).
  Proof. destruct t as [[]|[]| | | |]; cbn; try exact I; unfold ConvSpec.in_type; cbn; try lia. all: unfold femin, femax; cbn; try lia. Qed.
  Lemma chain_none ts : forall s i, no_number s i ->
    chain oor ff s i ts = Panicked \/ (exists v, chain oor ff s i ts = Done (Some conv_err, v)) \/ (exists v, chain oor ff s i ts = Done (None, v) /\ no_number (last ts s) v).
  Proof.
    induction ts as [|t ts IH]; intros s i N; [right; right; exists i; auto|]. cbn [chain].
    destruct (no_number_step s t i (zero_of t) N (zero_fits t)) as [E|[[v E]|(v & E & N')]]; rewrite E; cbn [obind]; [auto|right; left; eauto|].
    destruct (IH t v N') as [X|[X|X]]; [auto|auto|]. right. right. destruct X as (v' & X & Y). exists v'. split; [exact X|].
    replace (last (t :: ts) s) with (last ts t); [exact Y|]. clear. revert t. induction ts as [|a l IH]; intros t; [reflexivity|]. destruct l; [reflexivity|]. exact (IH t).
  Qed.
  Lemma huge_int z o w f : 2 ^ 31 - 1 <= Z.log2 (Z.abs z) ->
    TN TBigInt TBigFloat (NInt (Some z)) o = Done (None, NFlt None) /\ TN TBigInt (TF f) (NInt (Some z)) (NVal (VF w)) = Panicked.
  Proof.
    intros H. assert (E : p_bigint_to_bigfloat (Some z) = None) by (rewrite p_bigint_some, (proj2 (Z.ltb_ge _ _) H); reflexivity).
    split; [unfold to_nil; rewrite E; reflexivity|]. unfold to_nil, p_bigint_to_float, on. rewrite E. destruct f; reflexivity.
  Qed.
End Chain.
Lemma pow_log n : 0 <= n -> n <= Z.log2 (Z.abs (2 ^ n)).
Proof. intros H. rewrite Z.abs_eq by (apply Z.pow_nonneg; lia). rewrite Z.log2_pow2 by exact H. apply Z.le_refl. Qed.
Lemma huge_int_at b : 0 <= 2 ^ b - 1 -> exists z, 2 ^ b - 1 <= Z.log2 (Z.abs z).
Proof. intros H. exists (2 ^ (2 ^ b - 1)). apply pow_log, H. Qed.
Lemma huge_int_exists : exists z, 2 ^ 31 - 1 <= Z.log2 (Z.abs z).
Proof. apply huge_int_at. discriminate. Qed.
Lemma ten_le_two N : 0 <= N -> (inject_Z 10 ^ N <= inject_Z 2 ^ (4 * N))%Q.
Proof.
  intros H. rewrite Qpower_mult. rewrite <- (Zpower_Qpower 2 4) by lia. rewrite <- !Zpower_Qpower by exact H. rewrite <- Zle_Qle. apply Z.pow_le_mono_l. lia.
Qed.
Lemma denotes_two k : denotes (Fin false 1 k) (inject_Z 2 ^ k)%Q.
Proof. unfold denotes, digits. change (inject_Z 1) with 1%Q. ring. Qed.
Lemma huge_float_at N : 0 <= N -> exists x q, nonneg_mantissa x /\ denotes x q /\ (inject_Z 10 ^ N <= q)%Q.
Proof.
  intros H. exists (Fin false 1 (4 * N)), (inject_Z 2 ^ (4 * N))%Q. split; [cbn [nonneg_mantissa]; lia|]. split; [apply denotes_two|apply ten_le_two, H].
Qed.
