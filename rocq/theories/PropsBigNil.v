(** C123: nil pointers to big numbers in conv.To. *)
From Coq Require Import ZArith List QArith Qabs Qpower Lia.
From Verif Require Import Base Conv Float FloatSpec ConvFloat ConvFloatSpec Literal LiteralSpec BigNil BigNilSpec BigNilProofs PropsLiteral.
Close Scope Q_scope.
Open Scope Z_scope.
Open Scope go_scope.
Import ListNotations.

(** A nil *big.Int becomes the text <nil> or, without an error, a nil *big.Float.  Every other conversion of a nil pointer to another
    type panics, for each value of the output variable. *)
Theorem C123_nil oor ff s t i o : nil_of s i -> fits t o -> s <> t ->
  to_nil oor ff s t i o =
    match s, t with TBigInt, TString => Done (None, NVal (VS nil_written)) | TBigInt, TBigFloat => Done (None, NFlt None) | _, _ => Panicked end.
Proof. apply nil_converted. Qed.
Print Assumptions C123_nil.
Theorem C123_nil_same oor ff s i o : nil_of s i -> to_nil oor ff s s i o = Done (None, i).
Proof. apply nil_same. Qed.
Print Assumptions C123_nil_same.
(** The text <nil> is a number of no type. *)
Theorem C123_nil_text oor ff t o : t <> TString -> fits t o -> exists v, to_nil oor ff TString t (NVal (VS nil_written)) o = Done (Some conv_err, v).
Proof. apply nil_text_read. Qed.
Print Assumptions C123_nil_text.
(** So however often it is converted, no number comes out of a nil pointer: there is a panic, an error, or at the end a nil pointer or the
    text <nil>. *)
Theorem C123_no_number oor ff s i ts : no_number s i ->
  chain oor ff s i ts = Panicked \/ (exists v, chain oor ff s i ts = Done (Some conv_err, v)) \/
  (exists v, chain oor ff s i ts = Done (None, v) /\ no_number (last ts s) v).
Proof. intros N. apply chain_none, N. Qed.
Print Assumptions C123_no_number.

(** What is not nil is converted as if there were no pointers (C72-C80), for integers of fewer than 2^31 bits; see C95 for *big.Float to
    *big.Rat.  No such conversion panics. *)
Theorem C123_agrees oor ff s t i o g w : well_typed s g -> value_is i g -> fits t o -> held o w ->
  (forall z, g = VBigInt z -> Z.log2 (Z.abs z) < 2 ^ 31 - 1) -> ~ (s = TBigFloat /\ t = TBigRat) ->
  exists e r v, to oor float_parse ff bigfloat_to_string rat_set_string s t g w = Done (e, r) /\ to_nil oor ff s t i o = Done (e, v) /\
    (e = None -> well_typed t r -> value_is v r).
Proof.
  intros W V F H B N. destruct (agrees oor ff s t i o g w W V F H B N) as (e & r & v & A & C & D). exists e, r, v. split; [exact A|]. split; [exact C|]. intros E X. apply D; auto.
Qed.
Print Assumptions C123_agrees.

(** Numbers that become nil without an error: exactly the *big.Float whose text BigFloatToBigRat cannot read back, and the *big.Int of 2^31
    bits and more converted to *big.Float. *)
Theorem C123_nil_made oor ff s t i o g w v : well_typed s g -> value_is i g -> fits t o -> held o w -> ~ nil_of t o ->
  to_nil oor ff s t i o = Done (None, v) -> nil_of t v ->
  s = TBigFloat /\ t = TBigRat /\ (exists x, i = NFlt (Some x) /\ is_inf x = false /\ rat_set_string (bigfloat_to_string x) = None) \/
  s = TBigInt /\ t = TBigFloat /\ (exists z, i = NInt (Some z) /\ 2 ^ 31 - 1 <= Z.log2 (Z.abs z)).
Proof. intros W V F H NO T N. eapply nil_made; eauto. Qed.
Print Assumptions C123_nil_made.
(** Findings: those of 10^1000011 and more are among the former; the next conversion of what they become panics ... *)
Theorem C123_huge_float_refuted oor ff x q o t o' : nonneg_mantissa x -> denotes x q -> (inject_Z 10 ^ 1000011 <= q)%Q -> fits t o' -> t <> TBigRat ->
  to_nil oor ff TBigFloat TBigRat (NFlt (Some x)) (NRat o) = Done (None, NRat None) /\ to_nil oor ff TBigRat t (NRat None) o' = Panicked.
Proof.
  intros M D L F N. split.
  - unfold to_nil, on. cbn [deref obind]. rewrite (huge_rat_nil x q o M D L). reflexivity.
  - rewrite (nil_converted oor ff TBigRat t (NRat None) o' I F); [reflexivity|congruence].
Qed.
Print Assumptions C123_huge_float_refuted.
(** ... and the latter, all of them, become nil, and panic when converted to float32 or float64. *)
Theorem C123_huge_int_refuted oor ff z o w f : 2 ^ 31 - 1 <= Z.log2 (Z.abs z) ->
  to_nil oor ff TBigInt TBigFloat (NInt (Some z)) o = Done (None, NFlt None) /\ to_nil oor ff TBigInt (TF f) (NInt (Some z)) (NVal (VF w)) = Panicked.
Proof. apply huge_int. Qed.
Print Assumptions C123_huge_int_refuted.

(** An error leaves the output variable as it was, except that of a text, which puts a fresh number or nil there. *)
Theorem C123_errors oor ff s t i o g e v : t = TBigInt \/ t = TBigRat \/ t = TBigFloat -> well_typed s g -> value_is i g -> fits t o ->
  to_nil oor ff s t i o = Done (Some e, v) ->
  (s <> TString -> v = o) /\
  (s = TString -> match t with TBigInt => exists z, v = NInt (Some z) | TBigRat => v = NRat None | _ => v = NFlt None end).
Proof.
  intros Ht W V F T.
  destruct Ht as [-> | [-> | ->]]; destruct s; destruct g; cbn in W; try contradiction; destruct i as [p|p|p|x0]; cbn in V; try (destruct V as [-> []]); try (destruct V as (y & -> & [= <-])); try (destruct V as (? & _ & ?); discriminate); try (destruct V as [<- _]);
  unfold to_nil, on in T; cbn [deref obind to] in T.
  all: destruct o as [oi|oo|oq|ov]; cbn in F; try contradiction.
  all: repeat match type of T with
    | context [string_to_bigint ?x] => destruct (string_to_bigint x) as [[?|] [?|]] eqn:SB; cbn [obind] in T
    | context [string_to_bigfloat ?x ?y] => destruct (string_to_bigfloat x y) as [[?|] [?|]] eqn:SB; cbn [obind] in T
    | context [float_to_bigfloat ?x ?y] => destruct (float_to_bigfloat x y) as [[?|] ?] eqn:SB; cbn [obind] in T
    | context [float_to_bigrat ?x ?y] => destruct (float_to_bigrat x y) as [[?|] ?] eqn:SB; cbn [obind] in T
    | context [float_to_bigint ?x ?y] => destruct (float_to_bigint x y) as [[?|] ?] eqn:SB; cbn [obind] in T
    | context [bigfloat_to_bigint ?x ?y] => destruct (bigfloat_to_bigint x y) as [[?|] ?] eqn:SB; cbn [obind] in T
    | context [bigrat_to_bigint ?x ?y] => destruct (bigrat_to_bigint x y) as [[?|] ?] eqn:SB; cbn [obind] in T
    end.
  all: try (match type of T with context [match ?f with S32 => _ | _ => _ end] => is_var f; destruct f end).
  all: cbn [lift_i lift_f obind fst snd] in T.
  all: unfold string_to_bigrat, bigfloat_to_bigrat_text in *.
  all: repeat match type of T with context [match ?x with _ => _ end] => destruct x eqn:? end; cbn [lift_i lift_f obind fst snd] in T.
  all: try discriminate.
  all: split; intros S; try congruence; try (injection T as <- <-); eauto.

  - destruct (is_inf x); injection Heqp as <- <-; [injection T as <- <-; reflexivity|discriminate].
  - destruct (rat_set_string s); injection Heqp as <- <-; [discriminate|injection T as <- <-; reflexivity].
  - exfalso. unfold string_to_bigfloat in SB. repeat match type of SB with context [match ?b with _ => _ end] => destruct b; try discriminate end.
Qed.
Print Assumptions C123_errors.
(** From a finite *big.Float comes the nearest number of ten digits (see C95), or nil without an error if its exponent is beyond a million;
    an infinity is an error. *)
Theorem C123_float_to_rat oor ff x q o : nonneg_mantissa x -> denotes x q ->
  exists r k E, nearest_short 10 10 q r /\ (r == inject_Z k * inject_Z 10 ^ E)%Q /\ (k = 0 \/ k mod 10 <> 0) /\
    to_nil oor ff TBigFloat TBigRat (NFlt (Some x)) (NRat o) = Done (None, NRat (if (k =? 0) || (Z.abs E <=? 1000000) then Some r else None)).
Proof.
  intros M D. destruct (C95_bigfloat_to_bigrat x q o M D) as (r & k & E & A & B & C & H). exists r, k, E. split; [exact A|]. split; [exact B|]. split; [exact C|].
  unfold to_nil, on. cbn [deref obind]. rewrite H. reflexivity.
Qed.
Print Assumptions C123_float_to_rat.
Theorem C123_infinity oor ff neg o : to_nil oor ff TBigFloat TBigRat (NFlt (Some (Inf neg))) o = match o with NRat _ => Done (Some conv_err, o) | _ => Panicked end.
Proof. destruct o; reflexivity. Qed.
Print Assumptions C123_infinity.

(** The hypotheses are met. *)
Theorem C123_nonvacuous oor ff :
  nil_of TBigInt (NInt None) /\ fits TString (NVal (VS [1])) /\ no_number TBigInt (NInt None) /\
  chain oor ff TBigInt (NInt None) [TString; TString; TBigInt] = Done (Some conv_err, NInt (Some 0)) /\
  chain oor ff TBigInt (NInt None) [TBigInt; TBigFloat] = Done (None, NFlt None) /\ chain oor ff TBigInt (NInt None) [TBigFloat; TString] = Panicked /\
  chain oor ff TBigInt (NInt (Some (-12))) [TBigFloat; TBigRat; TString] = Done (None, NVal (VS [45; 49; 50; 47; 49])) /\
  value_is (NFlt (Some (Fin true 5 2))) (VBigFloat (Fin true 5 2)) /\ held (NRat None) (VBigRat 1) /\
  (exists x q, nonneg_mantissa x /\ denotes x q /\ (inject_Z 10 ^ 1000011 <= q)%Q) /\ (exists z, 2 ^ 31 - 1 <= Z.log2 (Z.abs z)).
Proof.
  split; [exact I|]. split; [exact I|]. split; [left; exact I|]. split; [vm_compute; reflexivity|]. split; [vm_compute; reflexivity|]. split; [vm_compute; reflexivity|]. split; [vm_compute; reflexivity|].
  split; [eexists; split; reflexivity|]. split; [intros x [=]|]. split; [apply huge_float_at; discriminate|exact huge_int_exists].
Qed.
Print Assumptions C123_nonvacuous.
