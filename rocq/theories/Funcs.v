(** Model of funcs/funcs.go: the slice and map helpers.

    Slices live in the memory of SliceMem.v, so that sharing of backing arrays is visible.  Maps are GoMap.v association
    lists; a nil map is [None]; a map held inside another map is a reference into a heap of maps. *)
From Verif Require Import Base Slice SliceMem GoMap.
Open Scope nat_scope.
Open Scope go_scope.

Section Slices.
  Context {T : Type} {ZT : Zero T}.
  (** spare capacity chosen by the Go runtime when append reallocates *)
  Variable ex : nat -> nat -> nat.

  (** funcs/funcs.go:57-63, SliceAdd; the result slice is what *slc holds afterwards. *)
  Definition slice_add (m : mem T) (slc : slice) (value : T) : mem T * slice :=
    let (m1, s1) := match slc with None => smake m 0 0 | Some _ => (m, slc) end in
    sappend ex m1 s1 [value].

  (** funcs/funcs.go:67-71, SliceCopy *)
  Definition slice_copy (m : mem T) (slc : slice) : mem T * slice :=
    let (m1, res) := smake m (slen slc) (slen slc) in (scopy m1 res slc, res).

  (** funcs/funcs.go:144-163, SliceIndex; [defawlt] is the variadic parameter. *)
  Definition slice_index (m : mem T) (slc : slice) (index : Z) (defawlt : list T) : outcome T :=
    let fallback := match defawlt with d :: _ => d | [] => zv end in
    match slc with
    | None => Done fallback
    | Some _ =>
        let l := Z.of_nat (slen slc) in
        if ((0 <=? index) && (index <? l))%Z then sget m slc (Z.to_nat index)
        else if ((index <? 0) && (0 <=? l + index))%Z then sget m slc (Z.to_nat (l + index))
        else Done fallback
    end.

  (** funcs/funcs.go:177-201 SliceRemove and 209-235 SliceRemoveUncomparable: the two differ only in how an element is
      compared with the value ([same]).  [i] and [rest] are the position of the range loop and the elements still to
      visit (the slice is not written during the loop, so its elements are read up front). *)
  Variable same : T -> bool.

  Fixpoint remove_first_loop (m : mem T) (slc : slice) (i : nat) (rest : list T) : outcome (mem T * slice) :=
    match rest with
    | [] => Done (m, slc)
    | t :: rest' =>
        if same t then
          let (m1, new) := smake m 0 (slen slc - 1) in
          let! before := reslice slc 0 i in
          let (m2, new2) := sappend ex m1 new (contents m1 before) in
          let! after := reslice slc (i + 1) (slen slc) in
          Done (sappend ex m2 new2 (contents m2 after))
        else remove_first_loop m slc (i + 1) rest'
    end.

  Fixpoint remove_all_loop (m : mem T) (new : slice) (rest : list T) : mem T * slice :=
    match rest with
    | [] => (m, new)
    | t :: rest' =>
        if same t then remove_all_loop m new rest'
        else let (m1, new1) := sappend ex m new [t] in remove_all_loop m1 new1 rest'
    end.

  Definition slice_remove (m : mem T) (slc : slice) (all : bool) : outcome (mem T * slice) :=
    if negb all then remove_first_loop m slc 0 (contents m slc)
    else let (m1, new) := smake m 0 0 in Done (remove_all_loop m1 new (contents m1 slc)).

  (** funcs/funcs.go:239-249, SliceReverse, in place: iterations i .. i+n-1 of the loop *)
  Fixpoint slice_reverse_loop (n i : nat) (m : mem T) (slc : slice) : outcome (mem T) :=
    match n with
    | 0 => Done m
    | S n' =>
        let j := slen slc - 1 - i in
        let! tmp := sget m slc i in
        let! b := sget m slc j in
        let! m1 := sset m slc i b in
        let! m2 := sset m1 slc j tmp in
        slice_reverse_loop n' (i + 1) m2 slc
    end.
  Definition slice_reverse_mem (m : mem T) (slc : slice) : outcome (mem T) := slice_reverse_loop (Nat.div (slen slc) 2) 0 m slc.

  (** funcs/funcs.go:253-277, SliceSortOrdered/Complex/Cmp/By: sort.Slice is a function on the elements, written back in
      place; [sort] is any sorting function (not necessarily stable). *)
  Definition slice_sort (sort : list T -> list T) (m : mem T) (slc : slice) : mem T :=
    match slc with
    | None => m
    | Some h => upd m (arr h) (write_at (array m (arr h)) (off h) (sort (contents m slc)))
    end.
End Slices.

(** funcs/funcs.go:177 / 209: which elements equal the value: == for SliceRemove, equal %p renderings for
    SliceRemoveUncomparable ([addr] gives the rendering). *)
Definition slice_remove_val {T} {ZT : Zero T} (eqb : T -> T -> bool) ex (m : mem T) slc (val : T) (all : bool) :=
  slice_remove ex (fun t => eqb t val) m slc all.
Definition slice_remove_uncomparable {T} {ZT : Zero T} (addr : T -> Z) ex (m : mem T) slc (val : T) (all : bool) :=
  slice_remove ex (fun t => Z.eqb (addr t) (addr val)) m slc all.

Section ToMap.
  Context {T K : Type} (eqb : K -> K -> bool).
  (** funcs/funcs.go:295-303, SliceToMapBy (SliceToMap 282-290 is the identity function) *)
  Fixpoint slice_to_map_by (fn : T -> K) (slc : list T) (res : list (K * bool)) : list (K * bool) :=
    match slc with
    | [] => res
    | v :: r => slice_to_map_by fn r (mset eqb res (fn v) true)
    end.

  (** funcs/funcs.go:307-314, SliceUniqueValues, first part: the map of the values *)
  Fixpoint uniq_loop (slc : list K) (uniq : list (K * nat)) : list (K * nat) :=
    match slc with
    | [] => uniq
    | v :: r => uniq_loop r (mset eqb uniq v 0)
    end.
  (** funcs/funcs.go:599-606, MapKeysToSlice; [order] is the iteration order of the map, some permutation of it. *)
  Definition map_keys_to_slice {V} (order : list (K * V)) : list K := map fst order.
End ToMap.

(** ** SliceFlatten and the reflection it uses *)

(** Go types as far as SliceFlatten distinguishes them: concrete non-slice types, interface types, and slice types,
    possibly defined (type Name []Elem). *)
Inductive gtype : Set :=
| TScalar (id : nat)
| TIface (id : nat)
| TSlice (name : option nat) (elem : gtype).

(** Values: a scalar with its type, an interface value (nil or a boxed value), a slice with its type and elements. *)
Inductive gval : Type :=
| VScalar (id : nat) (v : Z)
| VIface (id : nat) (dyn : option gval)
| VSlice (name : option nat) (elem : gtype) (vals : list gval).

Definition type_of (v : gval) : gtype :=
  match v with
  | VScalar id _ => TScalar id
  | VIface id _ => TIface id
  | VSlice n e _ => TSlice n e
  end.

Definition gtype_eq_dec (a b : gtype) : {a = b} + {a <> b}.
Proof. repeat decide equality. Defined.

(** funcs/funcs.go:108-112: strip all slice dimensions; the element type and the number of dimensions *)
Fixpoint strip (t : gtype) : gtype * nat :=
  match t with
  | TSlice _ e => let (t', n) := strip e in (t', S n)
  | _ => (t, 0)
  end.

(** val.Interface().(T) for an element whose static type is the non-slice type T: boxing an interface value yields its
    dynamic value, so the assertion panics on a nil interface. *)
Definition assert_elem (v : gval) : outcome gval :=
  match v with
  | VIface _ None => Panicked
  | _ => Done v
  end.

(** funcs/funcs.go:123-135, the recursive function f; [rslc] is the captured result slice. *)
Fixpoint flatten_f (v : gval) (rslc : list gval) : outcome (list gval) :=
  match v with
  | VSlice _ _ vals =>
      (fix loop (vals : list gval) (rslc : list gval) : outcome (list gval) :=
         match vals with
         | [] => Done rslc
         | x :: r =>
             let! rslc' := match x with
                           | VSlice _ _ _ => flatten_f x rslc
                           | _ => let! e := assert_elem x in Done (rslc ++ [e])
                           end in
             loop r rslc'
         end) vals rslc
  | _ => Panicked
  end.

(** funcs/funcs.go:82-137, SliceFlatten[T](value); [None] is the nil value. *)
Definition slice_flatten (rtyp : gtype) (value : option gval) : outcome (list gval) :=
  match value with
  | None => Done []
  | Some v =>
      match v with
      | VSlice name elem vals =>
          let (vtyp, numDims) := strip (type_of v) in
          if gtype_eq_dec rtyp vtyp then
            if numDims =? 1 then match name with None => Done vals | Some _ => Panicked end
            else flatten_f v []
          else Panicked
      | _ => Panicked
      end
  end.

(** ** Maps *)
Section Maps.
  Context {K V : Type} {ZV : Zero V} (eqb : K -> K -> bool).
  (** a map variable: nil or the entries *)
  Definition gmap : Type := option (list (K * V)).
  Definition gmap_entries (m : gmap) : list (K * V) := match m with Some e => e | None => [] end.

  (** funcs/funcs.go:322-338, MapIndex *)
  Definition map_index (mp : gmap) (key : K) (defawlt : list V) : V :=
    let fallback := match defawlt with d :: _ => d | [] => zv end in
    match mp with
    | None => fallback
    | Some e => match mget eqb e key with Some v => v | None => fallback end
    end.
  (** funcs/funcs.go:353-361, MapSet *)
  Definition map_set (mp : gmap) (key : K) (value : V) : gmap :=
    Some (mset eqb (match mp with None => [] | Some e => e end) key value).
  (** funcs/funcs.go:364-370, MapTest *)
  Definition map_test (mp : gmap) (key : K) : bool :=
    match mp with
    | None => false
    | Some e => match mget eqb e key with Some _ => true | None => false end
    end.
  (** funcs/funcs.go:373-376, MapUnset: delete on a nil map is a no-op *)
  Definition map_unset (mp : gmap) (key : K) : gmap :=
    match mp with None => None | Some e => Some (mdel eqb e key) end.

  (** funcs/funcs.go:550-595, MapSortOrdered/Complex/Cmp/By; [order] is the iteration order, some permutation of the
      map's entries, [sort] the sort.Slice call. *)
  Definition map_sort (sort : list (K * V) -> list (K * V)) (order : list (K * V)) : list (K * V) := sort order.
End Maps.
Arguments gmap K V : clear implicits.

(** Writing through a reference into a heap of maps *)
Definition hupd {A} (h : list A) (r : nat) (x : A) : list A := firstn r h ++ x :: skipn (S r) h.

Section Maps2.
  Context {K1 K2 V : Type} (eqb1 : K1 -> K1 -> bool) (eqb2 : K2 -> K2 -> bool).
  (** heap of second level maps; the top level map holds nil or a reference for each key *)
  Record st2 := St2 { heap2 : list (list (K2 * V)); top2 : gmap K1 (option nat) }.

  (** mp[key1]: nil for a missing key (and for a nil map) *)
  Definition inner_ref (s : st2) (key1 : K1) : option nat :=
    match top2 s with
    | None => None
    | Some e => match mget eqb1 e key1 with Some r => r | None => None end
    end.

  (** funcs/funcs.go:392-407, Map2Set *)
  Definition map2_set (s : st2) (key1 : K1) (key2 : K2) (value : V) : st2 :=
    let top := match top2 s with None => [] | Some e => e end in
    match inner_ref s key1 with
    | Some r => St2 (hupd (heap2 s) r (mset eqb2 (nth r (heap2 s) []) key2 value)) (Some top)
    | None => let r := length (heap2 s) in
              St2 (heap2 s ++ [mset eqb2 [] key2 value]) (Some (mset eqb1 top key1 (Some r)))
    end.
  (** funcs/funcs.go:410-418, Map2Test *)
  Definition map2_test (s : st2) (key1 : K1) (key2 : K2) : bool :=
    match inner_ref s key1 with
    | Some r => match mget eqb2 (nth r (heap2 s) []) key2 with Some _ => true | None => false end
    | None => false
    end.
  (** mp[key1][key2], as a caller reads it *)
  Definition map2_read (s : st2) (key1 : K1) (key2 : K2) : option V :=
    match inner_ref s key1 with
    | Some r => mget eqb2 (nth r (heap2 s) []) key2
    | None => None
    end.
  (** funcs/funcs.go:427-432, Map2Unset *)
  Definition map2_unset (s : st2) (key1 : K1) (key2 : K2) : st2 :=
    match inner_ref s key1 with
    | Some r => St2 (hupd (heap2 s) r (mdel eqb2 (nth r (heap2 s) []) key2)) (top2 s)
    | None => s
    end.
  (** funcs/funcs.go:373-376, MapUnset applied to the top level map *)
  Definition map2_unset_top (s : st2) (key1 : K1) : st2 := St2 (heap2 s) (map_unset eqb1 (top2 s) key1).
  (** funcs/funcs.go:353-361, MapSet(&mp, key1, nil) on the top level map *)
  Definition map2_set_nil (s : st2) (key1 : K1) : st2 := St2 (heap2 s) (map_set eqb1 (top2 s) key1 None).
End Maps2.
Arguments st2 K1 K2 V : clear implicits.

Section MapSlices.
  Context {K V : Type} {ZV : Zero V} (eqb : K -> K -> bool) (ex : nat -> nat -> nat).
  Record sts := Sts { mems : mem V; tops : gmap K slice }.

  (** funcs/funcs.go:448-464, MapSliceAdd *)
  Definition map_slice_add (s : sts) (key : K) (value : V) : sts :=
    let top := match tops s with None => [] | Some e => e end in
    let slc := match mget eqb top key with Some x => x | None => None end in
    let '(m1, slc1, top1) := match slc with
                             | None => let (m1, s1) := smake (mems s) 0 0 in (m1, s1, mset eqb top key s1)
                             | Some _ => (mems s, slc, top)
                             end in
    let (m2, slc2) := sappend ex m1 slc1 [value] in
    Sts m2 (Some (mset eqb top1 key slc2)).

  (** funcs/funcs.go:468-474 MapSliceRemove and 477-483 MapSliceRemoveUncomparable; [same] as in [slice_remove]. *)
  Definition map_slice_remove (same : V -> bool) (s : sts) (key : K) (all : bool) : outcome sts :=
    match tops s with
    | None => Done s
    | Some e =>
        match mget eqb e key with
        | Some slc => let! (m1, slc1) := slice_remove ex same (mems s) slc all in Done (Sts m1 (Some (mset eqb e key slc1)))
        | None => Done s
        end
    end.

  (** mp[key], as a caller reads it *)
  Definition map_slice_read (s : sts) (key : K) : option (list V) :=
    match mget eqb (gmap_entries (tops s)) key with
    | Some slc => Some (contents (mems s) slc)
    | None => None
    end.
  Definition map_slice_unset (s : sts) (key : K) : sts := Sts (mems s) (map_unset eqb (tops s) key).
End MapSlices.
Arguments sts K V : clear implicits.

Section Map2Slices.
  Context {K1 K2 V : Type} {ZV : Zero V} (eqb1 : K1 -> K1 -> bool) (eqb2 : K2 -> K2 -> bool) (ex : nat -> nat -> nat).
  Record st3 := St3 { mem3 : mem V; heap3 : list (list (K2 * slice)); top3 : gmap K1 (option nat) }.

  Definition inner_ref3 (s : st3) (key1 : K1) : option nat :=
    match top3 s with
    | None => None
    | Some e => match mget eqb1 e key1 with Some r => r | None => None end
    end.

  (** funcs/funcs.go:501-524, Map2SliceAdd *)
  Definition map2_slice_add (s : st3) (key1 : K1) (key2 : K2) (value : V) : st3 :=
    let top := match top3 s with None => [] | Some e => e end in
    let '(heap1, top1, r) := match inner_ref3 s key1 with
                             | Some r => (heap3 s, top, r)
                             | None => (heap3 s ++ [[]], mset eqb1 top key1 (Some (length (heap3 s))), length (heap3 s))
                             end in
    let slc := match mget eqb2 (nth r heap1 []) key2 with Some x => x | None => None end in
    let '(m1, slc1, heap2) := match slc with
                              | None => let (m1, s1) := smake (mem3 s) 0 0 in
                                        (m1, s1, hupd heap1 r (mset eqb2 (nth r heap1 []) key2 s1))
                              | Some _ => (mem3 s, slc, heap1)
                              end in
    let (m2, slc2) := sappend ex m1 slc1 [value] in
    St3 m2 (hupd heap2 r (mset eqb2 (nth r heap2 []) key2 slc2)) (Some top1).

  (** funcs/funcs.go:528-536 Map2SliceRemove and 539-547 Map2SliceRemoveUncomparable (a nil second level map has no keys) *)
  Definition map2_slice_remove (same : V -> bool) (s : st3) (key1 : K1) (key2 : K2) (all : bool) : outcome st3 :=
    match inner_ref3 s key1 with
    | None => Done s
    | Some r =>
        match mget eqb2 (nth r (heap3 s) []) key2 with
        | Some slc =>
            let! (m1, slc1) := slice_remove ex same (mem3 s) slc all in
            Done (St3 m1 (hupd (heap3 s) r (mset eqb2 (nth r (heap3 s) []) key2 slc1)) (top3 s))
        | None => Done s
        end
    end.

  (** mp[key1][key2], as a caller reads it *)
  Definition map2_slice_read (s : st3) (key1 : K1) (key2 : K2) : option (list V) :=
    match inner_ref3 s key1 with
    | Some r => match mget eqb2 (nth r (heap3 s) []) key2 with
                | Some slc => Some (contents (mem3 s) slc)
                | None => None
                end
    | None => None
    end.
End Map2Slices.
Arguments st3 K1 K2 V : clear implicits.
