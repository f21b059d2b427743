(** Specification of sorted tuple slices and of the event registry. *)
From Coq Require Import Permutation Sorting.
From Verif Require Import Base SliceMem FuncsFn FuncsSpec FuncsOrd.
Open Scope nat_scope.

(** the comparison operators form a total order and == is equality (all integer types and strings; not floats with NaN) *)
Record ord_laws {K} (o : gord K) : Prop := {
  ol_eq : forall a b, oeq o a b = true <-> a = b;
  ol_gt : forall a b, ogt o a b = olt o b a;
  ol_irr : forall a, olt o a a = false;
  ol_trans : forall a b c, olt o a b = true -> olt o b c = true -> olt o a c = true;
  ol_total : forall a b, olt o a b = true \/ a = b \/ olt o b a = true
}.

Definition key_lt {K} (o : gord K) (a b : K) : Prop := olt o a b = true.
(** keys strictly ascending *)
Definition ksorted {K V} (o : gord K) (mp : list (K * V)) : Prop := StronglySorted (key_lt o) (map fst mp).

(** all (key, value) pairs of a multimap *)
Definition pairs {K V} (mp : list (K * list V)) : list (K * V) := flat_map (fun e => map (pair (fst e)) (snd e)) mp.

(** ** histories *)
Inductive ordop (K V : Type) : Type := OAdd (k : K) (v : V) | ORemoveKey (k : K) | ORemoveValue (k : K) (v : V) (all : bool).
Arguments OAdd {K V}. Arguments ORemoveKey {K V}. Arguments ORemoveValue {K V}.

Section Hist.
  Context {K V : Type} (o : gord K) (same : V -> V -> bool) (ex : nat -> nat -> nat) {ZT : Zero (K * list V)}.
  Definition run_ordop (st : mem (K * list V) * slice) (op : ordop K V) : outcome (mem (K * list V) * slice) :=
    match op with
    | OAdd k v => ord_add o ex (fst st) (snd st) k v
    | ORemoveKey k => ord_remove_key o ex (fst st) (snd st) k
    | ORemoveValue k v all => ord_remove_value o (fun t => same t v) (fst st) (snd st) k all
    end.
  Fixpoint run_ordops (st : mem (K * list V) * slice) (ops : list (ordop K V)) : outcome (mem (K * list V) * slice) :=
    match ops with [] => Done st | op :: r => obind (run_ordop st op) (fun st' => run_ordops st' r) end.

  (** the finite map from keys to lists a history denotes *)
  Definition spec_ordop (f : K -> option (list V)) (op : ordop K V) : K -> option (list V) :=
    match op with
    | OAdd k v => fset (oeq o) f k (Some (match f k with Some l => l | None => [] end ++ [v]))
    | ORemoveKey k => fset (oeq o) f k None
    | ORemoveValue k v all => fset (oeq o) f k (option_map (rm all (fun t => same t v)) (f k))
    end.

  (** no key is added below all the keys present (an empty map takes any key) *)
  Fixpoint no_new_minimum (f : K -> option (list V)) (ops : list (ordop K V)) : Prop :=
    match ops with
    | [] => True
    | op :: r =>
        match op with
        | OAdd k _ => (forall k', f k' = None) \/ (exists k', f k' <> None /\ (k' = k \/ key_lt o k' k))
        | _ => True
        end /\ no_new_minimum (spec_ordop f op) r
    end.
End Hist.

(** ** event registry *)
Section EvHist.
  Context {I R : Type} (o : gord I) (addr : R -> Z) (ex : nat -> nat -> nat) {ZT : Zero (I * list R)}.
  (** OAdd is Register, ORemoveKey is RemoveId, ORemoveValue is Remove *)
  Definition run_evop (r : registry I R) (op : ordop I R) : outcome (registry I R) :=
    match op with
    | OAdd k v => ev_register o ex r k v
    | ORemoveKey k => ev_remove_id o ex r k
    | ORemoveValue k v all => ev_remove o addr r k v all
    end.
  Fixpoint run_evops (r : registry I R) (ops : list (ordop I R)) : outcome (registry I R) :=
    match ops with [] => Done r | op :: rest => obind (run_evop r op) (fun r' => run_evops r' rest) end.
End EvHist.

(** pass a value through receivers one after the other *)
Definition through {R T W} (process : R -> T -> W -> T * W) (rs : list R) (val : T) (w : W) : T * W :=
  fold_left (fun tw r => process r (fst tw) (snd tw)) rs (val, w).
