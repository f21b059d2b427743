(** Pipelines with eager stages: Reverse and the Sort functions read their whole source when they are applied
    (stream/stream.go:794-882), and so does Parallel (stream/stream.go:1183-1260), so building the pipeline runs code, and may not end. *)
From Verif Require Import Base Iter IterGen Stream Pipe PipeSpec Parallel.

(** One stage: a lazy one of Pipe.v, or an eager one. *)
Inductive estage : Type -> Type -> Type :=
| Lazy {A B : Type} (g : stage A B) : estage A B
(** stream/stream.go:794-807, Reverse *)
| EReverse {A : Type} (za : Zero A) : estage A A
(** stream/stream.go:812-882, SortOrdered, SortComplex, SortCmp, SortBy; [sort] as in Stream.v *)
| ESort {A : Type} (za : Zero A) (sort : list A -> list A) : estage A A
(** stream/stream.go:1183-1260, Parallel with the transforms [t]; [run]: what the workers made of the values read, an outcome
    of the relation [parallel] of Parallel.v.  Simplified: [t] is a pipeline of Pipe.v for the one-value case, and the same
    transforms as seen by [parallel] for the others; the theorems say which. *)
| EParallel {A B : Type} (za : Zero A) (t : pipe A B) (run : list A -> par_result A B) : estage A B.

(** Stages applied one after the other, the first one to the source. *)
Inductive epipe : Type -> Type -> Type :=
| EEnd {A : Type} : epipe A A
| EThen {A B C : Type} (g : estage A B) (p : epipe B C) : epipe A C.

Definition estage_zero {A B} (g : estage A B) : Zero B :=
  match g with
  | Lazy g => stage_zero g
  | EReverse za => za
  | ESort za _ => za
  | EParallel za t _ => pipe_zero t za
  end.

(** The iterator an eager stage returns: over the values read (or one that fails); the source has been left in state [st]. *)
Definition eager_iter {S0 A} (za : Zero A) (it : iterator S0 A) (x : eager A) (st : it_state it) : iterator S0 A :=
  mkIterator eager_state (eager_next x) (eager_init x) (fun _ => it_source it st).

(** An iterator [o] over something else, returned by an eager stage that has left its source in state [st]. *)
Definition over {S0 S1 A B} (o : iterator S1 B) (it : iterator S0 A) (st : it_state it) : iterator S0 B :=
  mkIterator (it_state o) (it_next o) (it_init o) (fun _ => it_source it st).

(** stream/stream.go:1183-1260, Parallel: ReduceToSlice(source).Next(), then SetError(OfEmpty, err), OfEmpty,
    transforms(OfOne(input[0])) or OfSlice(output). *)
Definition par_iter {S0 A B} (za : Zero A) (t : pipe A B) (it : iterator S0 A) (x : par_result A B) (st : it_state it) : iterator S0 B :=
  match x with
  | PError e => mkIterator eager_state (eager_next (ZT := pipe_zero t za) (EagerError e)) (eager_init (EagerError e)) (fun _ => it_source it st)
  | PEmpty => over (source (pipe_zero t za) (novalue_gen (H := pipe_zero t za)) tt) it st
  | POne x => over (apply_pipe t (source za (single_gen (H := za) x) false)) it st
  | PSlice out => mkIterator eager_state (eager_next (ZT := pipe_zero t za) (EagerSlice out)) (eager_init (EagerSlice out)) (fun _ => it_source it st)
  end.
Definition apply_parallel {S0 A B} (za : Zero A) (t : pipe A B) (run : list A -> par_result A B) (fuel : nat) (it : iterator S0 A) : outcome (iterator S0 B) :=
  let! (r, i) := next (st_to_slice (it_next it)) fuel (ofIter (false, it_init it)) in
  Done (par_iter za t it match r with (_, Some e) => PError e | (input, None) => run input end (snd (src i))).

(** Applying one stage to an iterator. *)
Definition apply_estage {S0 A B} (g : estage A B) : nat -> iterator S0 A -> outcome (iterator S0 B) :=
  match g in estage A0 B0 return nat -> iterator S0 A0 -> outcome (iterator S0 B0) with
  | Lazy g => fun _ it => Done (apply_stage g it)
  | EReverse za => fun fuel it =>
      let! (x, st) := st_reverse (it_next it) fuel (it_init it) in Done (eager_iter za it x st)
  | ESort za sort => fun fuel it =>
      let! (x, st) := st_sort (it_next it) sort fuel (it_init it) in Done (eager_iter za it x st)
  | EParallel za t run => apply_parallel za t run
  end.

Fixpoint apply_epipe {S0 A B} (p : epipe A B) (fuel : nat) : iterator S0 A -> outcome (iterator S0 B) :=
  match p in epipe A0 B0 return iterator S0 A0 -> outcome (iterator S0 B0) with
  | EEnd => fun it => Done it
  | EThen g p' => fun it => let! it' := apply_estage g fuel it in apply_epipe p' fuel it'
  end.
