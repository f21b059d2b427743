(** Specification vocabulary: iteration over slices in memory. *)
From Verif Require Import Base Iter Stream Pipe PipeSpec SliceMem.
Open Scope nat_scope.

(** The element [k] that is in the slice when call number [k] comes. *)
Definition seen_at {T} (env : nat -> @mem T) (slc : slice) (vs : list T) : Prop :=
  length vs = slen slc /\ forall k v, nth_error vs k = Some v -> nth_error (contents (env k) slc) k = Some v.

(** A pipeline that has read at least as many values as it has returned, or its whole source, whenever it returns one. *)
Definition no_faster {T U} (p : pipe T U) (l : list T) : Prop :=
  forall k, k <= length (fst (meaning p (l, Some EOI))) -> Nat.min k (length l) <= demand p (l, Some EOI) k.

(** The stages that deal with one value at a time: Map, MapError, Filter, Distinct, Duplicate, Peek, Skip and Limit. *)
Definition element_stage {A B} (g : stage A B) : Prop :=
  match g with SMap _ _ _ | SMapError _ _ _ | SFilter _ _ _ | SPeek _ _ _ | SSkip _ _ | SLimit _ _ => True | _ => False end.
Fixpoint element_wise {A B} (p : pipe A B) : Prop :=
  match p with PEnd => True | PThen g p' => element_stage g /\ element_wise p' end.

(** The stages that read their whole source before they return their value: Reduce, ReduceTo, ReduceToSlice, ReduceToMap (and Max, Min, Sum,
    Count, which are made of them). *)
Definition whole_stage {A B} (g : stage A B) : Prop :=
  match g with SReduceTo _ _ _ | SReduce _ _ _ | SToSlice | SToMap _ _ _ => True | _ => False end.
Definition step_or_expand {A B} (g : stage A B) : Prop := element_stage g \/ match g with SExpand _ | SExpandMaps _ _ => True | _ => False end.
Fixpoint steps_or_expands {A B} (p : pipe A B) : Prop :=
  match p with PEnd => True | PThen g p' => step_or_expand g /\ steps_or_expands p' end.
(** Pipelines with a stage that collects all values (nothing in front of it can stop early), whose result is then worked on and
    expanded, as in  Filter, ReduceToSlice, Map(sorted), ExpandSlices. *)
Definition passing_stage {A B} (g : stage A B) : Prop :=
  match g with SMap _ _ _ | SFilter _ _ _ | SPeek _ _ _ | SSkip _ _ => True | _ => False end.
Fixpoint collects {A B} (p : pipe A B) : Prop :=
  match p with PEnd => False | PThen g p' => passing_stage g /\ collects p' \/ whole_stage g /\ steps_or_expands p' end.
Definition in_step {A B} (p : pipe A B) : Prop := element_wise p \/ collects p.

(** Where a slice begins in its array; two slices that have no array in common, or the first begins no later. *)
Definition apart_or_before (into from : slice) : Prop :=
  match into, from with
  | Some a, Some b => arr a <> arr b \/ off a <= off b
  | _, _ => True
  end.

(** The cells append may write to, up to the capacity of the slice. *)
Definition spare_of (s : slice) (a i : nat) : Prop :=
  match s with None => False | Some h => a = arr h /\ off h + len h <= i < off h + cap h end.
(** No cell of [from] is one append(into, ...) may write to; or all of [from] lies after [into], as in  into := from[:0]. *)
Definition spare_apart (into from : slice) : Prop := forall a i, cells_of from a i -> ~ spare_of into a i.
Definition ends_before (into from : slice) : Prop :=
  match into, from with Some a, Some b => off a + len a <= off b | _, _ => True end.

(** [f] applied n times *)
Fixpoint times {T} (f : T -> T) (n : nat) (x : T) : T := match n with 0 => x | S n => f (times f n x) end.
