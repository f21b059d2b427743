(** C122: which big numbers share memory after conv.To. *)
From Coq Require Import ZArith List QArith Lia.
From Verif Require Import Base SliceMem Conv Float ConvFloat ConvFloatSpec BigMem BigMemSpec BigMemProofs.
Close Scope Q_scope.
Open Scope Z_scope.
Open Scope go_scope.
Import ListNotations.

(** * Both types the same big type *)
(** The output variable then points to an object other than the input, with the same number; no other number has changed.  If it
    pointed to an object other than the input, that object has been overwritten; otherwise the object is new. *)
Theorem C122_same_int h p z o : int_is h p z -> (forall q, o = Some q -> allocated h q) ->
  exists q h', to_int_int h (Some p) o = Done (h', Some q) /\ q <> p /\ int_is h' q z /\ unchanged_but q h h' /\
    (forall q0, o = Some q0 -> q0 <> p -> q = q0) /\ (o = None \/ o = Some p -> ~ allocated h q).
Proof. intros I O. destruct (same_int h p z o I O) as (q & h' & H1 & H2 & H3 & H4 & _ & H5 & H6 & _). exists q, h'. auto 10. Qed.
Print Assumptions C122_same_int.
Theorem C122_same_rat h p x o : rat_is h p x -> (forall q, o = Some q -> (q < length (rats h))%nat) ->
  exists q h', to_rat_rat h (Some p) o = Done (h', Some q) /\ q <> p /\ rat_is h' q x /\ unchanged_but_rat q h h' /\
    (forall q0, o = Some q0 -> q0 <> p -> q = q0) /\ (o = None \/ o = Some p -> (length (rats h) <= q)%nat).
Proof. intros I O. destruct (same_rat h p x o I O) as (q & h' & H1 & H2 & H3 & H4 & _ & H5 & H6). exists q, h'. auto 10. Qed.
Print Assumptions C122_same_rat.
Theorem C122_same_flt h p x o : flt_is h p x -> (forall q, o = Some q -> (q < length (flts h))%nat) ->
  exists q h', to_flt_flt h (Some p) o = Done (h', Some q) /\ q <> p /\ flt_is h' q x /\ unchanged_but_flt q h h' /\
    (forall q0, o = Some q0 -> q0 <> p -> q = q0) /\ (o = None \/ o = Some p -> (length (flts h) <= q)%nat).
Proof. intros I O. destruct (same_flt h p x o I O) as (q & h' & H1 & H2 & H3 & H4 & _ & H5 & H6). exists q, h'. auto 10. Qed.
Print Assumptions C122_same_flt.
(** conv.To itself, for the three types. *)
Theorem C122_same oor pl ff fb pr h t i o g : (t = TBigInt \/ t = TBigRat \/ t = TBigFloat) -> well_typed t g -> holds h i g -> variable_of h t o ->
  exists v h', to_mem oor pl ff fb pr h t t i o = Done (None, v, h') /\ v <> i /\ holds h' v g /\ holds h' i g.
Proof. apply whole_same. Qed.
Print Assumptions C122_same.
Theorem C122_same_calls oor pl ff fb pr h :
  (forall p q, to_mem oor pl ff fb pr h TBigInt TBigInt (HInt p) (HInt q) = let! (h', r) := to_int_int h p q in Done (None, HInt r, h')) /\
  (forall p q, to_mem oor pl ff fb pr h TBigRat TBigRat (HRat p) (HRat q) = let! (h', r) := to_rat_rat h p q in Done (None, HRat r, h')) /\
  (forall p q, to_mem oor pl ff fb pr h TBigFloat TBigFloat (HFlt p) (HFlt q) = let! (h', r) := to_flt_flt h p q in Done (None, HFlt r, h')).
Proof. repeat split. Qed.
Print Assumptions C122_same_calls.
(** nil for nil *)
Theorem C122_nil oor pl ff fb pr h :
  (forall o, to_mem oor pl ff fb pr h TBigInt TBigInt (HInt None) (HInt o) = Done (None, HInt None, h)) /\
  (forall o, to_mem oor pl ff fb pr h TBigRat TBigRat (HRat None) (HRat o) = Done (None, HRat None, h)) /\
  (forall o, to_mem oor pl ff fb pr h TBigFloat TBigFloat (HFlt None) (HFlt o) = Done (None, HFlt None, h)).
Proof. repeat split. Qed.
Print Assumptions C122_nil.

(** Finding: the number got is not a copy: it has the same words as the input.  Storing another number in either of the two with a method
    that stores a result in place (SetInt64 here) changes the lowest word of the other. *)
Theorem C122_copy_refuted h p z o v : int_is h p z -> (forall q, o = Some q -> allocated h q) -> z <> 0 -> 0 < Z.abs v < 2 ^ 64 ->
  exists q h1, to_int_int h (Some p) o = Done (h1, Some q) /\ int_is h1 p z /\ int_is h1 q z /\
    (exists h2, set_int64 h1 q v = Done h2 /\ int_is h2 q v /\ int_is h2 p (low_word_replaced z (Z.abs v))) /\
    (exists h2, set_int64 h1 p v = Done h2 /\ int_is h2 p v /\ int_is h2 q (low_word_replaced z (Z.abs v))).
Proof.
  intros I O N R. destruct (same_int h p z o I O) as (q & h1 & E & D & Q & (U & _ & _) & S & _). assert (P : int_is h1 p z) by (apply U; [congruence|exact I]).
  exists q, h1. split; [exact E|]. split; [exact P|]. split; [exact Q|]. split; [apply shared_written; auto|]. apply shared_written; auto. destruct S as (s & S1 & S2). exists s. auto.
Qed.
Print Assumptions C122_copy_refuted.
(** For numbers of one word (below 2^64) this means: the other has the new absolute value too. *)
Theorem C122_one_word z v : 0 < Z.abs z < 2 ^ 64 -> low_word_replaced z (Z.abs v) = Z.sgn z * Z.abs v.
Proof. intros R. unfold low_word_replaced. rewrite Z.mod_small by lia. f_equal. lia. Qed.
Print Assumptions C122_one_word.
(** The same for the numerators of two big.Rat. *)
Theorem C122_rat_copy_refuted h p x o v : rat_is h p x -> (forall q, o = Some q -> (q < length (rats h))%nat) -> Qnum x <> 0 -> 0 < Z.abs v < 2 ^ 64 ->
  exists q h1, to_rat_rat h (Some p) o = Done (h1, Some q) /\ rat_is h1 p x /\ rat_is h1 q x /\
    exists h2, set_int64 h1 (PNum q) v = Done h2 /\ int_is h2 (PNum q) v /\ int_is h2 (PNum p) (low_word_replaced (Qnum x) (Z.abs v)).
Proof.
  intros I O N R. destruct (same_rat h p x o I O) as (q & h1 & E & D & Q & (_ & U & _) & S & _). assert (P : rat_is h1 p x) by (apply U; [congruence|exact I]).
  exists q, h1. split; [exact E|]. split; [exact P|]. split; [exact Q|]. apply shared_written; auto; [congruence|]. destruct P as (b & B & J). exists (rnum b). split; [rewrite B; reflexivity|exact (proj1 J)].
Qed.
Print Assumptions C122_rat_copy_refuted.
(** A big.Float and the one it was converted from have the same mantissa in memory. *)
Theorem C122_float_words_refuted h p x o : flt_is h p x -> (forall q, o = Some q -> (q < length (flts h))%nat) ->
  exists q h' f f', to_flt_flt h (Some p) o = Done (h', Some q) /\ q <> p /\ nth_error (flts h') p = Some f /\ nth_error (flts h') q = Some f' /\ fmant f = fmant f'.
Proof.
  intros I O. destruct (same_flt h p x o I O) as (q & h' & E & D & (f' & Q & _) & (_ & _ & U) & S & _). destruct (U p x ltac:(congruence) I) as (f & F & _). exists q, h', f, f'. repeat split; auto.
Qed.
Print Assumptions C122_float_words_refuted.

(** What a copy would be: new(big.Int).Set(x) of package math/big.  Neither number is changed by storing into the other. *)
Theorem C122_set_copies h p z : int_is h p z -> exists h1 q, new_set h p = Done (h1, q) /\ ~ allocated h q /\ int_is h1 q z /\ unchanged h h1 /\
  forall v, Z.abs v < 2 ^ 64 -> (exists h2, set_int64 h1 q v = Done h2 /\ int_is h2 q v /\ int_is h2 p z) /\ (exists h2, set_int64 h1 p v = Done h2 /\ int_is h2 p v /\ int_is h2 q z).
Proof. intros I. destruct (new_set_copy h p z I) as (h1 & q & E & A & _ & Q & U & W). exists h1, q. auto 10. Qed.
Print Assumptions C122_set_copies.

(** Finding: numbers converted one after the other with one output variable are one object, with the last number; the pointers kept from
    the earlier calls all point to it. *)
Theorem C122_loop_refuted h p ps z zs : Forall2 (int_is h) (p :: ps) (z :: zs) ->
  exists h' q, to_each h (map Some (p :: ps)) None = Done (h', repeat (Some q) (length (p :: ps))) /\ ~ allocated h q /\ int_is h' q (last zs z) /\ Forall2 (int_is h') (p :: ps) (z :: zs).
Proof. apply to_each_one. Qed.
Print Assumptions C122_loop_refuted.

(** * From *big.Rat to *big.Int *)
(** The result is a pointer to the numerator of the input itself; the memory does not change.  With a denominator other than one it is an
    error, and the output variable stays. *)
Theorem C122_numerator oor pl ff fb pr h r q o : rat_is h r q ->
  to_mem oor pl ff fb pr h TBigRat TBigInt (HRat (Some r)) (HInt o) =
    Done (if Pos.eqb (Qden q) 1 then (None, HInt (Some (PNum r)), h) else (Some conv_err, HInt o, h)) /\
  rat_to_int h r o = Done (if Pos.eqb (Qden q) 1 then (None, Some (PNum r)) else (Some conv_err, o)) /\ int_is h (PNum r) (Qnum q).
Proof. intros R. destruct (rat_to_int_spec h r q o R) as [E I]. cbn [to_mem]. rewrite E. cbn [obind]. destruct (Pos.eqb (Qden q) 1); auto. Qed.
Print Assumptions C122_numerator.
(** Finding: storing into the result changes the input (whose numerator and denominator are not in the same array). *)
Theorem C122_numerator_refuted h r n v o : rat_is h r (inject_Z n) -> Z.abs v < 2 ^ 64 ->
  (forall x s s', nth_error (rats h) r = Some x -> iabs (rnum x) = Some s -> iabs (rden x) = Some s' -> arr s <> arr s') ->
  exists i h', rat_to_int h r o = Done (None, Some i) /\ set_int64 h i v = Done h' /\ int_is h' i v /\ rat_is h' r (inject_Z v).
Proof.
  intros R V S. destruct (rat_to_int_spec h r _ o R) as [E _]. destruct (numerator_written h r n v R V) as (h' & W).
  - intros b B d D s s' X Y. destruct (nth_error (rats h) r) as [x|] eqn:N; [|discriminate]. injection B as <-. injection D as <-. eapply S; eauto.
  - exists (PNum r), h'. split; [exact E|exact W].
Qed.
Print Assumptions C122_numerator_refuted.
(** Finding: so does the next conversion to the same variable: after  To(r, &i); To(x, &i)  the rational r is x. *)
Theorem C122_second_conversion_refuted h r n p z o : rat_is h r (inject_Z n) -> int_is h p z -> p <> PNum r ->
  exists i h', rat_to_int h r o = Done (None, Some i) /\ to_int_int h (Some p) (Some i) = Done (h', Some i) /\ rat_is h' r (inject_Z z) /\ int_is h' p z.
Proof. intros R I D. destruct (rat_to_int_spec h r _ o R) as [E _]. destruct (second_conversion h r n p z R I D) as (h' & W). exists (PNum r), h'. split; [exact E|exact W]. Qed.
Print Assumptions C122_second_conversion_refuted.

(** * Every other pair of types *)
(** To does what it does without memory (C72-C80): the result [v] is in memory the number [r]; every object and every array there was is
    as it was, whatever the output variable pointed to; and the number, its numerator and denominator are new, and so are their words. *)
Theorem C122_others oor pl ff fb pr h s t i o g : well_typed s g -> holds h i g -> variable_of h t o -> s <> t -> ~ (s = TBigRat /\ t = TBigInt) ->
  exists w e r v h', (forall x, o = HPlain x -> w = x) /\ to oor pl ff fb pr s t g w = Done (e, r) /\ to_mem oor pl ff fb pr h s t i o = Done (e, v, h') /\ only_new h h' /\ unchanged h h' /\
    (e = None -> well_typed t r -> holds h' v r /\ brand_new h h' v).
Proof.
  intros W H V N M. destruct (other_conversions oor pl ff fb pr h s t i o g W H V N M) as (w & e & r & v & h' & A & B & C & D & E). exists w, e, r, v, h'. auto 10 using only_new_unchanged.
Qed.
Print Assumptions C122_others.
(** After an error the output variable and the memory are as before, except after an error in a text: then the variable is nil, or a new
    *big.Int. *)
Theorem C122_errors oor pl ff fb pr h s t i o g e v h' : (t = TBigInt \/ t = TBigRat \/ t = TBigFloat) -> well_typed s g -> holds h i g -> variable_of h t o ->
  to_mem oor pl ff fb pr h s t i o = Done (Some e, v, h') ->
  (s <> TString -> v = o /\ h' = h) /\
  (s = TString -> match t with TBigInt => exists p, v = HInt (Some p) /\ ~ allocated h p | TBigRat => v = HRat None | _ => v = HFlt None end).
Proof. apply whole_errors. Qed.
Print Assumptions C122_errors.
(** So the result does not change when something is stored into an integer there was, and no integer there was changes when something is
    stored into the result. *)
Theorem C122_others_independent h h' out g : only_new h h' -> brand_new h h' out -> holds h' out g ->
  (forall p z v, int_is h p z -> Z.abs v < 2 ^ 64 -> exists h2, set_int64 h' p v = Done h2 /\ int_is h2 p v /\ holds h2 out g) /\
  (forall q p z v, out = HInt (Some q) -> int_is h p z -> Z.abs v < 2 ^ 64 -> exists h2, set_int64 h' q v = Done h2 /\ int_is h2 q v /\ int_is h2 p z).
Proof.
  intros O B H. split; [intros p z v I R; eapply write_old; eauto|]. intros q p z v -> I R. destruct g; try contradiction. eapply write_new; eauto.
Qed.
Print Assumptions C122_others_independent.

(** * The hypotheses are met: 5, 3/1 and -7, and what happens to them *)
Definition ex : heap := mkHeap [[5]; [3]; [1]; [0; 7]] [BI false (Some (Hdr 0 0 1 1)); BI true (Some (Hdr 3 1 1 1))] [BR (BI false (Some (Hdr 1 0 1 1))) (BI false (Some (Hdr 2 0 1 1)))] [BF FFinite true (Some (Hdr 0 0 1 1)) (-1)].
Example C122_nonvacuous : int_is ex (PInt 0) 5 /\ int_is ex (PInt 1) (-7) /\ rat_is ex 0 (inject_Z 3) /\ flt_is ex 0 (Fin true 5 (-1)) /\
  (exists h1 h2, to_int_int ex (Some (PInt 0)) None = Done (h1, Some (PInt 2)) /\ set_int64 h1 (PInt 2) 4 = Done h2 /\
     read h1 (HInt (Some (PInt 0))) = Done (VBigInt 5) /\ read h2 (HInt (Some (PInt 0))) = Done (VBigInt 4)) /\
  (exists h1 h2, rat_to_int ex 0 None = Done (None, Some (PNum 0)) /\ to_int_int ex (Some (PInt 1)) (Some (PNum 0)) = Done (h1, Some (PNum 0)) /\
     read h1 (HRat (Some 0%nat)) = Done (VBigRat (-7 # 1)) /\ h2 = h1) /\
  variable_of ex TBigInt (HInt (Some (PNum 0))) /\ holds ex (HFlt (Some 0%nat)) (VBigFloat (Fin true 5 (-1))).
Proof.
  assert (I5 : int_is ex (PInt 0) 5).
  { eexists. split; [reflexivity|]. split; [|reflexivity]. split; [cbn; lia|]. cbn. split; [constructor; [split; [lia|reflexivity]|constructor]|]. split; [reflexivity|discriminate]. }
  assert (F : flt_is ex 0 (Fin true 5 (-1))).
  { eexists. split; [reflexivity|]. split; [reflexivity|]. right. split; [reflexivity|]. split; [discriminate|]. split; [|reflexivity]. split; [cbn; lia|]. cbn. split; [constructor; [split; [lia|reflexivity]|constructor]|]. split; [reflexivity|discriminate]. }
  split; [exact I5|]. split.
  { eexists. split; [reflexivity|]. split; [|reflexivity]. split; [cbn; lia|]. cbn. split; [constructor; [split; [lia|reflexivity]|constructor]|]. split; [reflexivity|discriminate]. }
  split.
  { eexists. split; [reflexivity|]. split; [split; [|reflexivity]|]; [split; [cbn; lia|]; cbn; split; [constructor; [split; [lia|reflexivity]|constructor]|]; split; [reflexivity|discriminate]|].
    split; [reflexivity|]. split; [reflexivity|]. left. split; [cbn; lia|]. cbn. split; [constructor; [split; [lia|reflexivity]|constructor]|]. split; [reflexivity|discriminate]. }
  split; [exact F|]. split; [do 2 eexists; repeat split; vm_compute; reflexivity|]. split; [do 2 eexists; repeat split; vm_compute; reflexivity|]. split; [cbn; lia|exact F].
Qed.
Print Assumptions C122_nonvacuous.
