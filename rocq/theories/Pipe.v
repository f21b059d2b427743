(** Pipelines: stream transforms applied one after the other to an iterator, as in
    stream.Limit(2)(stream.Filter(p)(stream.Map(f)(it))).  Each stage is a function of stream/stream.go, modelled in
    Stream.v; the iterator it returns is iter.OfIter(closure), whose Next is [next closure] (Iter.v). *)
From Verif Require Import Base Iter Stream.

(** One stage that takes an Iter[A] and returns an Iter[B].  [c0] is the initial value of the variables captured by
    the callback.  The eager transforms (Reverse and the Sort functions) are in EagerPipe.v; the averages and the parallel
    transform are left out. *)
Inductive stage : Type -> Type -> Type :=
(** stream/stream.go:44-57, Map *)
| SMap {A B C : Type} (zb : Zero B) (f : C -> A -> B * C) (c0 : C) : stage A B
(** stream/stream.go:62-77, MapError *)
| SMapError {A B C : Type} (zb : Zero B) (f : C -> A -> ret B * C) (c0 : C) : stage A B
(** stream/stream.go:82-104, Filter; with the callbacks of Stream.v also Distinct and Duplicate (756-790) *)
| SFilter {A C : Type} (za : Zero A) (p : C -> A -> bool * C) (c0 : C) : stage A A
(** stream/stream.go:675-692, Peek *)
| SPeek {A C : Type} (za : Zero A) (f : C -> A -> C) (c0 : C) : stage A A
(** stream/stream.go:603-637, Skip *)
| SSkip {A : Type} (za : Zero A) (n : nat) : stage A A
(** stream/stream.go:644-672, Limit *)
| SLimit {A : Type} (za : Zero A) (n : nat) : stage A A
(** stream/stream.go:208-290, ReduceTo; also Count (745-747) *)
| SReduceTo {A B : Type} (zb : Zero B) (f : B -> A -> B) (identity : list B) : stage A B
(** stream/stream.go:122-204, Reduce; also Max, Min and Sum (1040-1084) *)
| SReduce {A : Type} (za : Zero A) (f : A -> A -> A) (identity : list A) : stage A A
(** stream/stream.go:295-355, ReduceToBool; also AllMatch, AnyMatch, NoneMatch (726-742) *)
| SReduceBool {A : Type} (p : A -> bool) (identity stopVal : bool) : stage A bool
(** stream/stream.go:360-395, ReduceToSlice *)
| SToSlice {A : Type} : stage A (list A)
(** stream/stream.go:452-500, ExpandSlices *)
| SExpand {A : Type} (za : Zero A) : stage (list A) A
(** stream/stream.go:507-541, ReduceToMap, of [KeyValue]s with keys that [eqb] tells apart *)
| SToMap {KT VT : Type} (zk : Zero KT) (zv' : Zero VT) (eqb : KT -> KT -> bool) : stage (KT * VT) (list (KT * VT))
(** stream/stream.go:549-598, ExpandMaps, for key and value types without nil.  A source map is the list of its entries in the
    order the runtime will iterate it: any order chosen by the runtime is an SMap in front of this stage. *)
| SExpandMaps {KT VT : Type} (zk : Zero KT) (zv' : Zero VT) : stage (list (KT * VT)) (KT * VT).

(** The zero value of the result type. *)
Definition stage_zero {A B} (g : stage A B) : Zero B :=
  match g with
  | SMap zb _ _ => zb
  | SMapError zb _ _ => zb
  | SFilter za _ _ => za
  | SPeek za _ _ => za
  | SSkip za _ => za
  | SLimit za _ => za
  | SReduceTo zb _ _ => zb
  | SReduce za _ _ => za
  | SReduceBool _ _ _ => Zero_bool
  | SToSlice => Zero_list _
  | SExpand za => za
  | SToMap _ _ _ => Zero_list _
  | SExpandMaps zk zv' => Zero_prod _ _ zk zv'
  end.

(** The variables captured by the closure of a stage, over a source iterator with state [S]. *)
Definition stage_state {A B} (g : stage A B) (S : Type) : Type :=
  match g with
  | @SMap _ _ C _ _ _ => S * C
  | @SMapError _ _ C _ _ _ => S * C
  | @SFilter _ C _ _ _ => S * C
  | @SPeek _ C _ _ _ => S * C
  | SSkip _ _ => nat * S
  | SLimit _ _ => nat * S
  | SReduceTo _ _ _ => bool * S
  | SReduce _ _ _ => bool * S
  | SReduceBool _ _ _ => bool * S
  | SToSlice => bool * S
  | @SExpand A _ => list A * nat * S
  | SToMap _ _ _ => bool * S
  | @SExpandMaps K V _ _ => option (list (K * V)) * S
  end.

(** Their initial values, with [s] the source iterator. *)
Definition stage_init {A B} (g : stage A B) {S} (s : S) : stage_state g S :=
  match g return stage_state g S with
  | SMap _ _ c0 => (s, c0)
  | SMapError _ _ c0 => (s, c0)
  | SFilter _ _ c0 => (s, c0)
  | SPeek _ _ c0 => (s, c0)
  | SSkip _ n => (n, s)
  | SLimit _ n => (n, s)
  | SReduceTo _ _ _ => (false, s)
  | SReduce _ _ _ => (false, s)
  | SReduceBool _ _ _ => (false, s)
  | SToSlice => (false, s)
  | SExpand _ => ([], 0, s)
  | SToMap _ _ _ => (false, s)
  | SExpandMaps _ _ => (None, s)
  end.

(** The source iterator among them. *)
Definition stage_src {A B} (g : stage A B) {S} : stage_state g S -> S :=
  match g return stage_state g S -> S with
  | SMap _ _ _ => fst
  | SMapError _ _ _ => fst
  | SFilter _ _ _ => fst
  | SPeek _ _ _ => fst
  | SSkip _ _ => snd
  | SLimit _ _ => snd
  | SReduceTo _ _ _ => snd
  | SReduce _ _ _ => snd
  | SReduceBool _ _ _ => snd
  | SToSlice => snd
  | SExpand _ => snd
  | SToMap _ _ _ => snd
  | SExpandMaps _ _ => snd
  end.

(** The closure of a stage over a source with the Next method [nx]. *)
Definition stage_fn {A B} (g : stage A B) {S} : stepfn S A -> stepfn (stage_state g S) B :=
  match g in stage A0 B0 return stepfn S A0 -> stepfn (stage_state g S) B0 with
  | SMap zb f _ => fun nx => st_map (H := zb) nx f
  | SMapError zb f _ => fun nx => st_map_error (H := zb) nx f
  | SFilter za p _ => fun nx => st_filter (ZT := za) nx p
  | SPeek za f _ => fun nx => st_peek (ZT := za) nx f
  | SSkip za _ => fun nx => st_skip (ZT := za) nx
  | SLimit za _ => fun nx => st_limit (ZT := za) nx
  | SReduceTo zb f ids => fun nx => st_reduce_to (H := zb) nx f ids
  | SReduce za f ids => fun nx => st_reduce (ZT := za) nx f ids
  | SReduceBool p identity stop => fun nx => st_reduce_bool nx p identity stop
  | SToSlice => fun nx => st_to_slice nx
  | SExpand za => fun nx => st_expand_slices (H := za) nx
  | SToMap zk zv' eqb => fun nx => st_to_map (H := zk) (H0 := zv') eqb nx
  | SExpandMaps zk zv' => fun nx => st_expand_maps (H := zk) (H0 := zv') (fun _ => false) (fun _ => false) nx
  end.

(** Stages applied one after the other, the first one to the source. *)
Inductive pipe : Type -> Type -> Type :=
| PEnd {A : Type} : pipe A A
| PThen {A B C : Type} (g : stage A B) (p : pipe B C) : pipe A C.

(** An iterator that reads (directly or not) from a source with state [S0]. *)
Record iterator (S0 T : Type) : Type := mkIterator {
  it_state : Type;
  it_next : stepfn it_state T;
  it_init : it_state;
  it_source : it_state -> S0
}.
Arguments mkIterator {S0 T}.
Arguments it_state {S0 T}.
Arguments it_next {S0 T}.
Arguments it_init {S0 T}.
Arguments it_source {S0 T}.

(** iter/iter.go:57-63, iter.OfIter(f), with [s] the captured variables of f. *)
Definition source {S0 T} (ZT : Zero T) (f : stepfn S0 T) (s : S0) : iterator S0 T :=
  mkIterator (impl S0 T) (next f) (ofIter s) src.

(** The iterator a stage returns. *)
Definition apply_stage {S0 A B} (g : stage A B) (it : iterator S0 A) : iterator S0 B :=
  mkIterator (impl (stage_state g (it_state it)) B)
    (next (H := stage_zero g) (stage_fn g (it_next it)))
    (ofIter (stage_init g (it_init it)))
    (fun st => it_source it (stage_src g (src st))).

Fixpoint apply_pipe {S0 A B} (p : pipe A B) : iterator S0 A -> iterator S0 B :=
  match p in pipe A0 B0 return iterator S0 A0 -> iterator S0 B0 with
  | PEnd => fun it => it
  | PThen g p' => fun it => apply_pipe p' (apply_stage g it)
  end.
