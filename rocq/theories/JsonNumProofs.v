(** Lemmas for C108: the texts of Go numbers are JSON numbers. *)
From Coq Require Import ZArith List QArith Qpower Qabs Bool Lia String.
From Verif Require Import JsonSpec.
From Verif Require Import Base Rest Conv Float FloatSpec FloatProofs FloatProofs2 ConvFloat ConvFloatSpec ConvFloatProofs ConvFloatProofs3
  ConvAny ConvAnySpec PropsConvAny Literal LiteralSpec LiteralProofs LiteralProofs2 LiteralProofs3
  FloatText FloatTextSpec FloatTextProofs3 FloatTextProofs4 FloatTextProofs5 PropsFloatText DecDigits RatErr JsonNum JsonNumSpec.
From Verif Require Decimal Json.
Import ListNotations.
Close Scope Q_scope.
Open Scope Z_scope.

Lemma head_in_digits l : digits_only l -> l <> [] -> exists d r, l = d :: r /\ 48 <= d <= 57 /\ digits_only r.
Proof. intros D N. destruct l as [|d r]; [congruence|]. inversion D; subst. eauto 6. Qed.
Lemma int_part_of l : digits_only l -> l <> [] -> (l = [48] \/ hd 0 l <> 48) -> int_part l.
Proof.
  intros D N [->|H]; [constructor|]. destruct (head_in_digits l D N) as (d & r & -> & Hd & Hr). cbn in H. constructor; [lia|exact Hr].
Qed.
Lemma json_of_parts (neg : bool) i f x : int_part i -> frac_part f -> exp_part x -> json_number ((if neg then [45] else []) ++ i ++ f ++ x).
Proof. intros I F X. exists (if neg then [45] else []), i, f, x. split; [reflexivity|]. split; [destruct neg; constructor|]. auto. Qed.

(** plain decimals *)
Lemma plain_json t m f (neg : bool) : plain t m f -> json_number (if neg then 45 :: t else t).
Proof.
  intros P. assert (K : exists i fr, t = i ++ fr ++ [] /\ int_part i /\ frac_part fr).
  { inversion P as [l W|l r c W R C]; subst.
    - exists t, []. rewrite app_nil_r. destruct W as ((N & D) & H). split; [reflexivity|]. split; [apply int_part_of; auto|constructor].
    - exists l, (46 :: r ++ [c]). rewrite app_nil_r. destruct W as ((N & D) & H). split; [reflexivity|]. split; [apply int_part_of; auto|].
      constructor. split; [destruct r; discriminate|]. apply Forall_app. split; [exact R|]. constructor; [unfold digitc; lia|constructor]. }
  destruct K as (i & fr & -> & I & F). pose proof (json_of_parts neg i fr [] I F JsonSpec.exp_none) as J. destruct neg; exact J.
Qed.
Lemma plain_text_stands text neg v : plain_text text neg v -> stands_for text v.
Proof.
  intros (t & m & f & -> & P & E). split; [apply (plain_json _ _ _ neg P)|]. exists neg, m, f, 0. split; [apply text_numeral, P|].
  rewrite E. unfold numeral_value. change (inject_Z 10 ^ 0)%Q with 1%Q. ring.
Qed.
(** integers *)
Lemma integer_stands z : stands_for (integer_to_string z) (inject_Z z).
Proof.
  apply (plain_text_stands _ (z <? 0)). unfold integer_to_string, Decimal.int_to_string.
  exists (map Decimal.chr (Decimal.dec (Z.abs z))), (Z.abs z), 0.
  destruct (whole_dec (Z.abs z) ltac:(lia)) as (W & V).
  assert (P : plain (map Decimal.chr (Decimal.dec (Z.abs z))) (Z.abs z) 0) by (rewrite <- V at 2; constructor; exact W).
  destruct (z <? 0) eqn:C; [apply Z.ltb_lt in C|apply Z.ltb_ge in C].
  - replace (- z) with (Z.abs z) by lia. split; [reflexivity|]. split; [exact P|]. change (inject_Z 10 ^ (- 0))%Q with 1%Q. replace (- Z.abs z) with z by lia. ring.
  - replace z with (Z.abs z) at 1 by lia. split; [reflexivity|]. split; [exact P|]. change (inject_Z 10 ^ (- 0))%Q with 1%Q. replace (Z.abs z) with z by lia. ring.
Qed.
(** floats *)
Lemma float_stands z x q : is_float (fmt_of z) x -> denotes x q -> exists r, stands_for (float_to_string z x) r /\ rounds_to (fmt_of z) r q.
Proof.
  intros F D. destruct (Qeq_dec q 0) as [E|N].
  - assert (D0 : denotes x 0) by (apply (denotes_eq _ q); assumption).
    rewrite (proj1 (C98_special z x) F D0). exists 0%Q. split.
    + apply (plain_text_stands _ (signbit x)). exists [48], 0, 0. split; [destruct (signbit x); reflexivity|]. split; [|destruct (signbit x); reflexivity].
      change 0 with (in_base_ten [48]) at 1. constructor. split; [split; [discriminate|constructor; [lia|constructor]]|auto].
    + unfold rounds_to. cbn [Qnum Z.ltb Z.abs Z.compare]. unfold to_fmt. cbn [Z.eqb]. cbn [denotes]. rewrite E. unfold digits. cbn [Z.opp]. ring.
  - destruct (C98_shortest z x q F D N) as (v & k & P & R & _). exists v. split; [exact (plain_text_stands _ _ _ P)|exact R].
Qed.
(** big floats *)
Definition starts (ds : list Z) : Prop := match ds with d :: _ => 1 <= d <= 9 | [] => False end.
Lemma fmt_e_json ds dexp : digits_ok ds -> starts ds -> exists i f x, fmt_e ds dexp = i ++ f ++ x /\ int_part i /\ frac_part f /\ exp_part x.
Proof.
  intros D St. destruct ds as [|d r]; [destruct St|]. cbn in St. inversion D as [|? ? Hd Dr]; subst. unfold fmt_e.
  set (x := dexp - 1). set (et := (if Z.abs x <? 10 then [48] else []) ++ map Decimal.chr (Decimal.dec (Z.abs x))).
  exists [Decimal.chr d], (match r with [] => [] | _ => 46 :: map Decimal.chr r end), (101 :: (if x <? 0 then 45 else 43) :: et).
  split; [reflexivity|]. split; [constructor; [unfold Decimal.chr; lia|constructor]|]. split.
  - destruct r as [|c r]; [constructor|]. constructor. split; [discriminate|]. apply chr_only, Dr.
  - assert (Et : digits1 et).
    { destruct (dec_string (Z.abs x) ltac:(lia)) as (A & _). unfold et. split.
      - destruct A as (A & _). intros E. apply app_eq_nil in E. tauto.
      - apply Forall_app. split; [destruct (Z.abs x <? 10); repeat constructor; lia|apply A]. }
    destruct (x <? 0); [apply (JsonSpec.exp_some 101 [45] et)|apply (JsonSpec.exp_some 101 [43] et)]; auto.
Qed.
Lemma digit_at_ok ds i : digits_ok ds -> 0 <= digit_at ds i <= 9.
Proof.
  intros D. unfold digit_at. destruct (0 <=? i); [|lia]. destruct (nth_in_or_default (Z.to_nat i) ds 0) as [H|H]; [|lia].
  pose proof (proj1 (Forall_forall _ _) D _ H) as B. cbn in B. lia.
Qed.
Lemma fmt_f_json ds dexp P : digits_ok ds -> starts ds -> exists i f x, fmt_f P ds dexp = i ++ f ++ x /\ int_part i /\ frac_part f /\ exp_part x.
Proof.
  intros D St.
  assert (G : forall (h : nat -> Z) l, (forall i, 0 <= h i <= 9) -> Forall digitc (map (fun i => Decimal.chr (h i)) l)).
  { intros h l H. apply Forall_map, Forall_forall. intros i _. specialize (H i). unfold digitc, Decimal.chr. lia. }
  exists (if 0 <? dexp then map (fun i => Decimal.chr (digit_at ds (Z.of_nat i))) (seq 0 (Z.to_nat dexp)) else [48]),
    (if 0 <? P then 46 :: map (fun i => Decimal.chr (digit_at ds (dexp + Z.of_nat i))) (seq 0 (Z.to_nat P)) else []), [].
  split; [rewrite app_nil_r; reflexivity|]. split; [|split; [|constructor]].
  - destruct (0 <? dexp) eqn:C; [|constructor]. apply Z.ltb_lt in C. destruct (Z.to_nat dexp) as [|n] eqn:En; [lia|]. cbn [seq map].
    destruct ds as [|d r]; [destruct St|]. cbn in St. change (digit_at (d :: r) (Z.of_nat 0)) with d.
    constructor; [unfold Decimal.chr; lia|]. apply G. intros i. apply digit_at_ok, D.
  - destruct (0 <? P) eqn:C; [|constructor]. apply Z.ltb_lt in C. constructor. split; [destruct (Z.to_nat P) eqn:En; [lia|discriminate]|].
    apply G. intros i. apply digit_at_ok, D.
Qed.
Lemma format_g_json ds dexp : digits_ok ds -> starts ds -> exists i f x, format_g ds dexp = i ++ f ++ x /\ int_part i /\ frac_part f /\ exp_part x.
Proof. intros D St. unfold format_g. destruct (_ || _); [apply fmt_e_json; auto|apply fmt_f_json; auto]. Qed.
Lemma the_digits_start m e : 0 < m -> starts (fst (the_digits m e)).
Proof.
  intros Hm. pose proof (the_digits_spec false m e Hm) as S1. unfold the_digits in *. pose proof (frac_spec m e) as (F2 & _ & F3 & _).
  destruct (frac m e) as [n d]. cbn [fst snd] in *. specialize (F3 Hm).
  pose proof (round_lower 10 ltac:(lia) 10 None n d ltac:(lia) F3 F2) as Lo. pose proof (round_e 10 10 None n d) as Re.
  destruct (round 10 10 None n d) as [m10 e10]. cbn [fst snd] in *. assert (Lo' : 10 ^ (10 - 1) <= m10) by (apply Lo; destruct Re as [Re|Re]; [exact Re|discriminate]).
  assert (M : 0 < m10) by lia. destruct S1 as (D & N & _). destruct (strip_spec (Decimal.dec m10)) as (j & E).
  pose proof (dec_head m10 M) as H. rewrite E in H. destruct (strip (Decimal.dec m10)) as [|a r]; [congruence|]. cbn in H |- *. inversion D as [|? ? Ha _]; subst.
  destruct a; [destruct H|lia|lia].
Qed.
Lemma bigfloat_stands x q : nonneg_mantissa x -> denotes x q -> stands_for (bigfloat_to_string x) (ten_digits x) /\ nearest_short 10 10 q (ten_digits x).
Proof.
  intros Hm D. split; [|apply ten_digits_spec; assumption]. destruct x as [| |neg m e]; try (destruct D; fail). cbn in Hm.
  destruct (Z.eq_dec m 0) as [->|N].
  - cbn [bigfloat_to_string ten_digits Z.eqb]. apply (plain_text_stands _ neg). exists [48], 0, 0. split; [destruct neg; reflexivity|]. split; [|destruct neg; reflexivity].
    change 0 with (in_base_ten [48]) at 1. constructor. split; [split; [discriminate|constructor; [lia|constructor]]|auto].
  - assert (M : 0 < m) by lia. rewrite (bigfloat_to_string_nz neg m e N). pose proof (the_digits_spec neg m e M) as S1. pose proof (the_digits_start m e M) as S2.
    destruct (the_digits m e) as [ds dexp]. cbn [fst snd] in *. destruct S1 as (D1 & N1 & L1 & _ & _ & E1). split.
    + destruct (format_g_json ds dexp D1 S2) as (i & f & x & -> & I & F & X). apply json_of_parts; auto.
    + destruct (format_g_writes ds dexp D1 N1 L1) as (a & t & mm & f & x & E & M1 & X1 & _ & _ & V). exists neg, mm, f, x. rewrite E. split.
      * destruct neg; [apply (num_minus a t)|apply (num_plain a t)]; assumption.
      * rewrite E1. unfold numeral_value. destruct neg; [setoid_rewrite <- V; rewrite inject_Z_opp|setoid_rewrite <- V]; ring.
Qed.
(** rationals *)
Lemma bigrat_float q : exists y, denotes (bigrat_to_bigfloat q) y /\ nonneg_mantissa (bigrat_to_bigfloat q).
Proof.
  unfold bigrat_to_bigfloat, round_literal. set (p := Z.max 53 _).
  assert (P0 : 0 < 10 ^ p) by (apply Z.pow_pos_nonneg; unfold p; lia).
  assert (N0 : 0 <= (2 * Z.abs (Qnum q) * 10 ^ p + Z.pos (Qden q)) / (2 * Z.pos (Qden q))) by (apply Z.div_pos; nia).
  destruct (to_prec_nearest p (Qnum q <? 0) _ (10 ^ p) ltac:(unfold p; lia) N0 P0) as (m & e & E & M & _). rewrite E.
  exists (digits 2 (if Qnum q <? 0 then - m else m) e). split; [cbn; reflexivity|exact M].
Qed.
Lemma bigrat_stands q : Qred q = q -> (integral q -> stands_for (bigrat_to_normalized_string q) q) /\
  (~ integral q -> exists y r, denotes (bigrat_to_bigfloat q) y /\ stands_for (bigrat_to_normalized_string q) r /\ nearest_short 10 10 y r /\
     (Qabs (q - r) <= Qabs q * (1 # 10 ^ 9) + (1 # 10 ^ 52))%Q).
Proof.
  intros R. split.
  - intros (z & E). pose proof (lowest_int q z R E) as ->. exact (integer_stands z).
  - intros N. unfold bigrat_to_normalized_string. destruct (Pos.eqb (Qden q) 1) eqn:C; [elim N; apply (proj1 (den_test q R) C)|].
    destruct (bigrat_float q) as (y & D & M). destruct (bigfloat_stands _ y M D) as (S1 & S2). exists y, (ten_digits (bigrat_to_bigfloat q)). split; [exact D|]. split; [exact S1|]. split; [exact S2|].
    eapply Qle_trans; [apply (rat_ten_error q y D M)|]. apply Qplus_le_compat; [apply Qle_refl|vm_compute; discriminate].
Qed.

Section Num.
  Variable oor : ikind -> float -> Z.
  Lemma any_to_string_ok t g v : under t g -> any_to_string oor t v = table oor float_parse float_to_string bigfloat_to_string rat_set_string g TString v (VS []).
  Proof. intros U. unfold any_to_string. apply C92_any_to; [exact U|left; reflexivity]. Qed.
  Lemma number_ok a : finite_number a -> exists s, number_to_value oor a = Done (Json.number_of_str s, None) /\ number_text a s.
  Proof.
    destruct a as [t v|]; [|intros []]. intros (g & U & Nu & W & q & Q). unfold numeric in Nu.
    assert (NT : forall s, (match g, v with
      | TI _, VI z | TBigInt, VBigInt z => stands_for s (inject_Z z)
      | TF sz, VF x => exists q r, denotes x q /\ stands_for s r /\ rounds_to (fmt_of sz) r q
      | TBigFloat, VBigFloat x => exists q r, denotes x q /\ stands_for s r /\ nearest_short 10 10 q r
      | TBigRat, VBigRat q => (integral q -> stands_for s q) /\
          (~ integral q -> exists y r, denotes (bigrat_to_bigfloat q) y /\ stands_for s r /\ nearest_short 10 10 y r /\
            (Qabs (q - r) <= Qabs q * (1 # 10 ^ 9) + (1 # 10 ^ 52))%Q)
      | _, _ => False end) -> number_text (GVal t v) s) by (intros s H; exists g; auto).
    assert (Gen : (t = Known TBigRat -> False) -> number_to_value oor (GVal t v) =
      obind (table oor float_parse float_to_string bigfloat_to_string rat_set_string g TString v (VS []))
        (fun r => match r with (Some e, _) => Done (zv, Some e) | (None, VS s) => Done (Json.number_of_str s, None) | (None, _) => Panicked end)).
    { intros K. rewrite <- (any_to_string_ok t g v U). destruct t as [[]| |]; try reflexivity. elim K. reflexivity. }
    destruct g as [k|z| | | |], v as [i|x|i|x|r|s|]; cbn in W, Q; try tauto.
    - exists (integer_to_string i). split; [|apply NT, integer_stands]. rewrite Gen; [reflexivity|]. intros ->. destruct U as [U|(p & n & U & _)]; discriminate.
    - destruct (float_stands z x q W Q) as (r & S1 & S2). exists (float_to_string z x). split; [|apply NT; exists q, r; auto].
      rewrite Gen; [destruct z; reflexivity|]. intros ->. destruct U as [U|(p & n & U & _)]; discriminate.
    - exists (integer_to_string i). split; [|apply NT, integer_stands]. rewrite Gen; [reflexivity|]. intros ->. destruct U as [U|(p & n & U & _)]; discriminate.
    - destruct W as (_ & W). assert (M : nonneg_mantissa x) by exact W. destruct (bigfloat_stands x q M Q) as (S1 & S2). exists (bigfloat_to_string x). split; [|apply NT; exists q, (ten_digits x); auto].
      rewrite Gen; [reflexivity|]. intros ->. destruct U as [U|(p & n & U & _)]; discriminate.
    - exists (bigrat_to_normalized_string r). split; [|apply NT, bigrat_stands, W].
      destruct U as [->|(p & n & -> & B)]; [reflexivity|]. elim B. unfold big. tauto.
  Qed.
  Lemma number_text_json a s : number_text a s -> json_number s.
  Proof.
    destruct a as [t v|]; [|intros []]. intros (g & _ & W & H). destruct g, v; try (destruct H; fail); try exact (proj1 H).
    - destruct H as (q & r & _ & (J & _) & _). exact J.
    - destruct H as (q & r & _ & (J & _) & _). exact J.
    - destruct H as (H1 & H2). cbn in W. destruct (Pos.eqb (Qden q) 1) eqn:C.
      + apply (proj1 (H1 (proj1 (den_test q W) C))).
      + assert (N : ~ integral q) by (intros I; apply (den_test q W) in I; rewrite C in I; discriminate). destruct (H2 N) as (y & r & _ & (J & _) & _). exact J.
  Qed.
End Num.
