(** C20 over floats: Distinct and Duplicate where == is not reflexive. *)
From Coq Require Import QArith.
From Verif Require Import Base IterSpec Iter IterGen IterGenProofs GoMap Stream StreamSpec StreamProofs Float FloatSpec MathFloat MathFloatSpec MathFloatProofs StreamFloatProofs.
Close Scope Q_scope.
Open Scope nat_scope.

Section C20Floats.
  Context {S : Type} {zf : Zero float} (nx : stepfn S float).
  (** Distinct over floats: the outputs are values of the source standing for pairwise different numbers (0 and -0 are the same
      number), and every number of the source is the number of one of them; but (finding) every NaN comes through, since NaN
      is not equal to itself. *)
  Theorem C20_float_distinct s l e : yields nx s l e ->
    exists out, yields (next (st_distinct nx feqb)) (ofIter (s, [])) out e /\
      (forall x, In x out -> In x l) /\
      ForallOrdPairs (fun x y => forall a b, stands x a -> stands y b -> ~ ext_eq a b) out /\
      (forall x a, In x l -> stands x a -> exists y b, In y out /\ stands y b /\ ext_eq a b) /\
      filter is_nan out = filter is_nan l.
  Proof.
    intros Y. exists (firsts feqb [] l). split.
    { pose proof (st_filter_yields nx (distinct_cb feqb) [] s l e Y) as R. rewrite (distinct_spec_per feqb feqb_per l [] []) in R; [exact R|]. reflexivity. }
    split; [|split; [|split]].
    - intros x H. apply firsts_in in H. tauto.
    - apply (pairs_impl (fun x y => feqb x y = false)); [|apply firsts_pairs, feqb_per].
      intros x y H a b X Yb E. apply (feqb_ok x y a b X Yb) in E. congruence.
    - intros x a I X. pose proof (firsts_cover feqb l [] x I (stands_not_nan x a X)) as C. apply existsb_exists in C as (y & Iy & Q).
      destruct (feqb_stands x y a X Q) as (b & B & E). eauto.
    - rewrite <- !odd_nan. apply firsts_odd, feqb_per.
  Qed.
  (** Duplicate over floats: a value for each number that occurs at least twice; (finding) never a NaN, however often it occurs. *)
  Theorem C20_float_duplicate s l e : yields nx s l e ->
    exists out, yields (next (st_duplicate nx feqb)) (ofIter (s, [])) out e /\
      (forall x, In x out -> In x l /\ x <> NaN /\ 2 <= count_of feqb x l) /\
      ForallOrdPairs (fun x y => forall a b, stands x a -> stands y b -> ~ ext_eq a b) out /\
      (forall x a, stands x a -> 2 <= count_of feqb x l -> exists y b, In y out /\ stands y b /\ ext_eq a b).
  Proof.
    intros Y. exists (seconds feqb [] l). split.
    { pose proof (st_filter_yields nx (duplicate_cb feqb) [] s l e Y) as R. rewrite (duplicate_spec_per feqb feqb_per l [] []) in R; [exact R|]. reflexivity. }
    split; [|split].
    - intros x H. apply (seconds_in feqb feqb_per) in H. destruct H as (A & B & _ & C). split; [exact A|]. split; [intros ->; discriminate|exact C].
    - apply (pairs_impl (fun x y => feqb x y = false)); [|apply seconds_pairs, feqb_per].
      intros x y H a b X Yb E. apply (feqb_ok x y a b X Yb) in E. congruence.
    - intros x a X C. destruct (seconds_cover feqb feqb_per l [] x) as (y & Iy & Q); [cbn; lia|exact C|].
      destruct (feqb_stands x y a X Q) as (b & B & E). eauto.
  Qed.
End C20Floats.
Print Assumptions C20_float_distinct.
Print Assumptions C20_float_duplicate.

(** two floats are counted as equal exactly when they stand for the same number *)
Theorem C20_float_equal x y : feqb x y = true <-> exists a b, stands x a /\ stands y b /\ ext_eq a b.
Proof.
  split.
  - intros H. assert (X : x <> NaN) by (intros ->; discriminate). destruct (stands_exists x X) as (a & A).
    destruct (feqb_stands x y a A H) as (b & B & E). eauto.
  - intros (a & b & A & B & E). apply (feqb_ok x y a b A B). exact E.
Qed.
Print Assumptions C20_float_equal.

Example C20_float_ex : firsts feqb [] [NaN; Fin true 0 0; Fin false 0 0; NaN; Fin false 1 1; Fin false 2 0; Inf true] =
    [NaN; Fin true 0 0; NaN; Fin false 1 1; Inf true] /\
  seconds feqb [] [NaN; Fin true 0 0; Fin false 0 0; NaN; Fin false 1 1; Fin false 2 0; Inf true] = [Fin false 0 0; Fin false 2 0].
Proof. split; reflexivity. Qed.
