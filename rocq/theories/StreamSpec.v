(** Specification vocabulary for streams. *)
From Coq Require Import Permutation Sorting.
From Verif Require Import Base Iter IterSpec GoInt GoMap Conv ConvSpec MathInt MathIntSpec Stream.
Open Scope nat_scope.

(** Callbacks without captured variables. *)
Definition pure_map {T U} (f : T -> U) : unit -> T -> U * unit := fun c x => (f x, c).

(** Mapping with a callback whose captured variables change at every call. *)
Fixpoint map_acc {T U C} (f : C -> T -> U * C) (c : C) (l : list T) : list U * C :=
  match l with
  | [] => ([], c)
  | x :: r => let '(u, c1) := f c x in let '(us, c2) := map_acc f c1 r in (u :: us, c2)
  end.

(** Filtering with such a callback. *)
Fixpoint filter_acc {T C} (p : C -> T -> bool * C) (c : C) (l : list T) : list T * C :=
  match l with
  | [] => ([], c)
  | x :: r => let '(b, c1) := p c x in let '(us, c2) := filter_acc p c1 r in (if b then x :: us else us, c2)
  end.

(** First occurrences: the distinct values of [l] in order of first occurrence. *)
Fixpoint firsts {T} (eqb : T -> T -> bool) (seen l : list T) : list T :=
  match l with
  | [] => []
  | x :: r => if existsb (eqb x) seen then firsts eqb seen r else x :: firsts eqb (x :: seen) r
  end.

(** [count_of eqb x l]: how often [x] occurs. *)
Definition count_of {T} (eqb : T -> T -> bool) (x : T) (l : list T) : nat := length (filter (eqb x) l).

(** The values at their second occurrence, in order. *)
Fixpoint seconds {T} (eqb : T -> T -> bool) (seen l : list T) : list T :=
  match l with
  | [] => []
  | x :: r => if count_of eqb x seen =? 1 then x :: seconds eqb (x :: seen) r else seconds eqb (x :: seen) r
  end.

(** What one call of the constructor of an eager transform does: it drains the source and builds an iterator. *)
Definition constructs {S X : Type} (f : nat -> S -> outcome (X * S)) (s : S) (x : X) : Prop :=
  exists n, forall m, n <= m -> exists s', f m s = Done (x, s').

(** Go's sort functions, as far as this library relies on them: a sorting function for the comparison [less]. *)
Definition sorts {T} (less : T -> T -> bool) (sort : list T -> list T) : Prop :=
  forall l, Permutation l (sort l) /\ StronglySorted (fun a b => less b a = false) (sort l).

Definition zsum (l : list Z) : Z := fold_right Z.add 0%Z l.

(** Every running sum stays within the type. *)
Definition sums_fit (k : ikind) (l : list Z) : Prop := forall l1 l2, l = l1 ++ l2 -> in_type k (zsum l1).

(** The finite map a list of key/value pairs denotes: the last pair for a key wins. *)
Fixpoint last_value {K V} (eqb : K -> K -> bool) (l : list (K * V)) (k : K) : option V :=
  match l with
  | [] => None
  | (k', v) :: r => match last_value eqb r k with Some v' => Some v' | None => if eqb k k' then Some v else None end
  end.
