(** Specification vocabulary: maps with keys that are not equal to themselves. *)
From Coq Require Import Permutation.
From Verif Require Import Base GoMap Funcs.
Open Scope nat_scope.

(** What is done to a map. *)
Inductive mapop {K V : Type} : Type := Put (k : K) (v : V) | Del (k : K).
Arguments mapop K V : clear implicits.

Section Keys.
  Context {K V : Type} (eqb : K -> K -> bool).
  (** a key equal to itself; for floats: every one but NaN *)
  Definition ordinary (k : K) : bool := eqb k k.
  (** MapSet and MapUnset, one after the other, of a map that is nil at first *)
  Definition perform_op (m : gmap K V) (o : mapop K V) : gmap K V := match o with Put k v => map_set eqb m k v | Del k => map_unset eqb m k end.
  Definition perform (ops : list (mapop K V)) : gmap K V := fold_left perform_op ops None.
  (** The last thing done to a key equal to [k]: its value, None if it was deleted or never put. *)
  Definition done_to (k : K) (acc : option V) (o : mapop K V) : option V :=
    match o with Put k' v => if eqb k k' then Some v else acc | Del k' => if eqb k k' then None else acc end.
  Definition latest (ops : list (mapop K V)) (k : K) : option V := fold_left (done_to k) ops None.
  (** The entries put under keys not equal to themselves. *)
  Fixpoint odd_puts (ops : list (mapop K V)) : list (K * V) :=
    match ops with
    | [] => []
    | Put k v :: r => if ordinary k then odd_puts r else (k, v) :: odd_puts r
    | Del _ :: r => odd_puts r
    end.
  (** The entries of a map after what was done to it: of equal keys one entry with the last value put, if it was not deleted since;
      of the other keys every entry ever put. *)
  Definition entries_after (ops : list (mapop K V)) (entries : list (K * V)) : Prop :=
    (forall k v, In (k, v) entries -> (exists v', In (Put k v') ops) /\ (ordinary k = true -> latest ops k = Some v)) /\
    (forall k v, latest ops k = Some v -> exists k', eqb k k' = true /\ In (k', v) entries) /\
    ForallOrdPairs (fun a b => eqb (fst a) (fst b) = false) entries /\
    Permutation (filter (fun e => negb (ordinary (fst e))) entries) (odd_puts ops).
End Keys.

(** == on structs with two fields, arrays of two elements, complex numbers *)
Definition pair_eqb {A B} (ea : A -> A -> bool) (eb : B -> B -> bool) (x y : A * B) : bool := ea (fst x) (fst y) && eb (snd x) (snd y).
