(** Specification vocabulary for big numbers in a heap. *)
From Coq Require Import ZArith List QArith.
From Verif Require Import Base Iter Float FloatSpec Big.
Close Scope Q_scope.
Open Scope Z_scope.
Open Scope go_scope.

(** A source that hands out pointers and does not touch the objects. *)
Definition hands {St V} (nx : stepfn St (option addr)) : stepfn (St * list V) (option addr) := fun fuel w =>
  let! (r, s') := nx fuel (fst w) in Done (r, (s', snd w)).

(** The pointers [ps] lead to objects with the contents [vs]. *)
Definition points {V} (h : list V) (ps : list (option addr)) (vs : list V) : Prop :=
  Forall2 (fun p v => exists a, p = Some a /\ nth_error h a = Some v) ps vs.

(** Every object of [h] is still there and has not changed. *)
Definition kept {V} (h h' : list V) : Prop := forall a, (a < length h)%nat -> nth_error h' a = nth_error h a.

Definition qsum (l : list Q) : Q := fold_right Qplus 0%Q l.

(** [x] comes of adding the numbers [l] to [r] one after the other, every sum being rounded to [p] bits. *)
Inductive rounded_sum (p : Z) : Q -> list Q -> Q -> Prop :=
| rs_nil r x : (r == x)%Q -> rounded_sum p r [] x
| rs_cons r v l r' x : nearest_short 2 p (r + v) r' -> rounded_sum p r' l x -> rounded_sum p r (v :: l) x.

(** The big.Float denotes the number [q]. *)
Definition bf_denotes (x : bfloat) (q : Q) : Prop := denotes (snd x) q.
Definition bf_ok (x : bfloat) : Prop := snd x <> NaN /\ 0 <= fst x.

(** SumBigOps and AvgBigOps of a source of pointers: the step function and, for SumBigOps, the state after the call that
    allocates the sum. *)
Definition sum_of {St V} (o : bigops V) (nx : stepfn St (option addr)) (h : list V) : stepfn (impl (bool * (St * list V)) (option addr)) (option addr) :=
  next (st_sum_big o (hands nx) (fst (sum_big_new o h))).
Definition sum_start {St V} (o : bigops V) (s : St) (h : list V) : impl (bool * (St * list V)) (option addr) := ofIter (false, (s, snd (sum_big_new o h))).
Definition avg_of {St V} (o : bigops V) (nx : stepfn St (option addr)) : stepfn (impl (St * list V) (option addr)) (option addr) := next (st_avg_big o (hands nx)).
