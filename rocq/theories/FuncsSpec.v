(** What the slice and map helpers should do, on plain lists and finite functions. *)
From Coq Require Import Permutation Sorting.
From Verif Require Import Base SliceMem GoMap Funcs.
Open Scope nat_scope.

(** remove the first element satisfying [p] *)
Fixpoint rm_first {T} (p : T -> bool) (l : list T) : list T :=
  match l with [] => [] | x :: r => if p x then r else x :: rm_first p r end.
(** remove all of them *)
Definition rm_all {T} (p : T -> bool) (l : list T) : list T := filter (fun x => negb (p x)) l.
Definition rm {T} (all : bool) (p : T -> bool) (l : list T) : list T := if all then rm_all p l else rm_first p l.

(** the slice uses an array that did not exist in [m], hence shares no cell with any older slice *)
Definition fresh {T} (m : mem T) (s : slice) : Prop := match s with None => False | Some h => length m <= arr h end.

(** every slice that existed in [m] still has the same elements in [m'] *)
Definition all_unchanged {T} (m m' : mem T) : Prop := forall t, valid m t -> valid m' t /\ contents m' t = contents m t.

(** the element at a Go-like index: from the end when negative *)
Definition at_index {T} (l : list T) (i : Z) : option T :=
  if (0 <=? i)%Z then nth_error l (Z.to_nat i)
  else if (0 <=? Z.of_nat (length l) + i)%Z then nth_error l (Z.to_nat (Z.of_nat (length l) + i))
  else None.

Definition or_default {T} {ZT : Zero T} (o : option T) (d : list T) : T :=
  match o with Some x => x | None => match d with x :: _ => x | [] => zv end end.

(** ** Typed nested slices *)
Inductive wt : gval -> gtype -> Prop :=
| wt_scalar id v : wt (VScalar id v) (TScalar id)
| wt_iface id d : wt (VIface id d) (TIface id)
| wt_slice n e vals : (forall x, In x vals -> wt x e) -> wt (VSlice n e vals) (TSlice n e).

(** the elements of a nested slice from left to right *)
Fixpoint leaves (v : gval) : list gval :=
  match v with
  | VSlice _ _ vals => flat_map leaves vals
  | _ => [v]
  end.

Definition is_nil_iface (v : gval) : bool := match v with VIface _ None => true | _ => false end.

(** ** Histories of map operations *)

(** finite functions with one entry changed *)
Definition fset {K V} (eqb : K -> K -> bool) (f : K -> V) (k : K) (v : V) : K -> V := fun k' => if eqb k' k then v else f k'.

Inductive mapop (K V : Type) : Type := MSet (k : K) (v : V) | MUnset (k : K).
Arguments MSet {K V}. Arguments MUnset {K V}.

Section Hist1.
  Context {K V : Type} (eqb : K -> K -> bool).
  Definition run_mapop (m : gmap K V) (o : mapop K V) : gmap K V :=
    match o with MSet k v => map_set eqb m k v | MUnset k => map_unset eqb m k end.
  Definition spec_mapop (f : K -> option V) (o : mapop K V) : K -> option V :=
    match o with MSet k v => fset eqb f k (Some v) | MUnset k => fset eqb f k None end.
End Hist1.

(** two level maps: set and unset an inner key, drop a whole inner map, assign nil to an outer key *)
Inductive map2op (K1 K2 V : Type) : Type :=
| M2Set (k1 : K1) (k2 : K2) (v : V) | M2Unset (k1 : K1) (k2 : K2) | M2UnsetTop (k1 : K1) | M2SetNil (k1 : K1).
Arguments M2Set {K1 K2 V}. Arguments M2Unset {K1 K2 V}. Arguments M2UnsetTop {K1 K2 V}. Arguments M2SetNil {K1 K2 V}.

Section Hist2.
  Context {K1 K2 V : Type} (eqb1 : K1 -> K1 -> bool) (eqb2 : K2 -> K2 -> bool).
  Definition run_map2op (s : st2 K1 K2 V) (o : map2op K1 K2 V) : st2 K1 K2 V :=
    match o with
    | M2Set k1 k2 v => map2_set eqb1 eqb2 s k1 k2 v
    | M2Unset k1 k2 => map2_unset eqb1 eqb2 s k1 k2
    | M2UnsetTop k1 => map2_unset_top eqb1 s k1
    | M2SetNil k1 => map2_set_nil eqb1 s k1
    end.
  Definition spec_map2op (f : K1 -> K2 -> option V) (o : map2op K1 K2 V) : K1 -> K2 -> option V :=
    match o with
    | M2Set k1 k2 v => fset eqb1 f k1 (fset eqb2 (f k1) k2 (Some v))
    | M2Unset k1 k2 => fset eqb1 f k1 (fset eqb2 (f k1) k2 None)
    | M2UnsetTop k1 | M2SetNil k1 => fset eqb1 f k1 (fun _ => None)
    end.
End Hist2.

(** maps of slices *)
Inductive slcop (K V : Type) : Type := SAdd (k : K) (v : V) | SRemove (k : K) (v : V) (all : bool) | SUnset (k : K).
Arguments SAdd {K V}. Arguments SRemove {K V}. Arguments SUnset {K V}.

Section HistS.
  Context {K V : Type} {ZV : Zero V} (eqb : K -> K -> bool) (same : V -> V -> bool) (ex : nat -> nat -> nat).
  Definition run_slcop (s : sts K V) (o : slcop K V) : outcome (sts K V) :=
    match o with
    | SAdd k v => Done (map_slice_add eqb ex s k v)
    | SRemove k v all => map_slice_remove eqb ex (fun t => same t v) s k all
    | SUnset k => Done (map_slice_unset eqb s k)
    end.
  Fixpoint run_slcops (s : sts K V) (ops : list (slcop K V)) : outcome (sts K V) :=
    match ops with [] => Done s | o :: r => obind (run_slcop s o) (fun s' => run_slcops s' r) end.
  Definition spec_slcop (f : K -> option (list V)) (o : slcop K V) : K -> option (list V) :=
    match o with
    | SAdd k v => fset eqb f k (Some (match f k with Some l => l | None => [] end ++ [v]))
    | SRemove k v all => fset eqb f k (option_map (rm all (fun t => same t v)) (f k))
    | SUnset k => fset eqb f k None
    end.
End HistS.

(** two level maps of slices *)
Inductive slc2op (K1 K2 V : Type) : Type := S2Add (k1 : K1) (k2 : K2) (v : V) | S2Remove (k1 : K1) (k2 : K2) (v : V) (all : bool).
Arguments S2Add {K1 K2 V}. Arguments S2Remove {K1 K2 V}.

Section HistS2.
  Context {K1 K2 V : Type} {ZV : Zero V} (eqb1 : K1 -> K1 -> bool) (eqb2 : K2 -> K2 -> bool) (same : V -> V -> bool).
  Context (ex : nat -> nat -> nat).
  Definition run_slc2op (s : st3 K1 K2 V) (o : slc2op K1 K2 V) : outcome (st3 K1 K2 V) :=
    match o with
    | S2Add k1 k2 v => Done (map2_slice_add eqb1 eqb2 ex s k1 k2 v)
    | S2Remove k1 k2 v all => map2_slice_remove eqb1 eqb2 ex (fun t => same t v) s k1 k2 all
    end.
  Fixpoint run_slc2ops (s : st3 K1 K2 V) (ops : list (slc2op K1 K2 V)) : outcome (st3 K1 K2 V) :=
    match ops with [] => Done s | o :: r => obind (run_slc2op s o) (fun s' => run_slc2ops s' r) end.
  Definition spec_slc2op (f : K1 -> K2 -> option (list V)) (o : slc2op K1 K2 V) : K1 -> K2 -> option (list V) :=
    match o with
    | S2Add k1 k2 v => fset eqb1 f k1 (fset eqb2 (f k1) k2 (Some (match f k1 k2 with Some l => l | None => [] end ++ [v])))
    | S2Remove k1 k2 v all => fset eqb1 f k1 (fset eqb2 (f k1) k2 (option_map (rm all (fun t => same t v)) (f k1 k2)))
    end.
End HistS2.
