(** Maps whose key type has values that are not equal to themselves: the functions of Funcs.v with any [eqb] for ==, and the look-ups of
    Map2SliceAdd one by one. *)
From Verif Require Import Base SliceMem GoMap Funcs.
Open Scope go_scope.
Open Scope nat_scope.

Section Map2SliceAdd.
  Context {K1 K2 V : Type} {ZV : Zero V} (eqb1 : K1 -> K1 -> bool) (eqb2 : K2 -> K2 -> bool) (ex : nat -> nat -> nat).
  (** ( *mp )[key1]: the second level map, nil if there is none *)
  Definition second (top : list (K1 * option nat)) (key1 : K1) : option nat :=
    match mget eqb1 top key1 with Some r => r | None => None end.
  (** ( *mp )[key1][key2]; reading from a nil map gives nil *)
  Definition third (heap : list (list (K2 * slice))) top key1 key2 : slice :=
    match second top key1 with
    | Some r => match mget eqb2 (nth r heap []) key2 with Some x => x | None => None end
    | None => None
    end.
  (** ( *mp )[key1][key2] = x; writing into a nil map panics *)
  Definition store_third (heap : list (list (K2 * slice))) top key1 key2 (x : slice) : outcome (list (list (K2 * slice))) :=
    match second top key1 with
    | Some r => Done (hupd heap r (mset eqb2 (nth r heap []) key2 x))
    | None => Panicked
    end.
  (** funcs/funcs.go:501-524, Map2SliceAdd, with every ( *mp )[key1][key2] looked up again as it is written there ([map2_slice_add] of Funcs.v looks
      key1 up once, which is the same if key1 is equal to itself). *)
  Definition map2_slice_add_lookups (s : st3 K1 K2 V) (key1 : K1) (key2 : K2) (value : V) : outcome (st3 K1 K2 V) :=
    let top := match top3 s with None => [] | Some e => e end in
    let '(heap1, top1) := match second top key1 with
                          | Some _ => (heap3 s, top)
                          | None => (heap3 s ++ [[]], mset eqb1 top key1 (Some (length (heap3 s))))
                          end in
    let slc := third heap1 top1 key1 key2 in
    let! st := match slc with
               | None => let (m1, s1) := smake (mem3 s) 0 0 in
                         let! heap2 := store_third heap1 top1 key1 key2 s1 in Done (m1, s1, heap2)
               | Some _ => Done (mem3 s, slc, heap1)
               end in
    let '(m1, slc1, heap2) := st in
    let (m2, slc2) := sappend ex m1 slc1 [value] in
    let! heap3 := store_third heap2 top1 key1 key2 slc2 in
    Done (St3 m2 heap3 (Some top1)).
End Map2SliceAdd.
