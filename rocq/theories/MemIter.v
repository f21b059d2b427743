(** Iterators over slices in memory, and loops that store what they deliver, possibly into the same memory. *)
From Verif Require Import Base Iter IterGen Stream Pipe SliceMem Writer.
Open Scope go_scope.
Open Scope nat_scope.

(** ** Memory that changes between calls *)
(** iter/gen.go:29-44, SliceIterGen over a slice in memory.  [env c] is the memory at call number [c] of the function; what other
    code does to it between the calls is arbitrary.  State: idx, number of calls so far. *)
Definition mem_slice_gen {T} {ZT : Zero T} (env : nat -> @mem T) (slc : slice) : stepfn (nat * nat) T := fun _ st =>
  let '(idx, c) := st in
  if idx <? slen slc then
    let! value := sget (env c) slc idx in Done ((value, None), (idx + 1, c + 1))
  else Done ((zv, Some EOI), (idx, c + 1)).

(** ** Pipelines whose source can be exchanged *)
(** The same as [apply_pipe] of Pipe.v (theorem [pipe_same]), with the state separate from the source function. *)
Fixpoint pipe_state {A B} (p : pipe A B) (S : Type) : Type :=
  match p with
  | PEnd => S
  | @PThen _ B' _ g p' => pipe_state p' (impl (stage_state g S) B')
  end.
Fixpoint pipe_next {A B} (p : pipe A B) : forall S, stepfn S A -> stepfn (pipe_state p S) B :=
  match p in pipe A0 B0 return forall S, stepfn S A0 -> stepfn (pipe_state p S) B0 with
  | PEnd => fun S nx => nx
  | PThen g p' => fun S nx => pipe_next p' _ (next (H := stage_zero g) (stage_fn g nx))
  end.
Fixpoint pipe_init {A B} (p : pipe A B) : forall S, S -> pipe_state p S :=
  match p in pipe A0 B0 return forall S, S -> pipe_state p S with
  | PEnd => fun S s => s
  | PThen g p' => fun S s => pipe_init p' _ (ofIter (stage_init g s))
  end.
Fixpoint pipe_src {A B} (p : pipe A B) : forall S, pipe_state p S -> S :=
  match p in pipe A0 B0 return forall S, pipe_state p S -> S with
  | PEnd => fun S s => s
  | PThen g p' => fun S st => stage_src g (src (pipe_src p' _ st))
  end.

Section Mem.
  Context {T : Type} {ZT : Zero T}.

  (** iter.OfSlice(src), iter/iter.go:91-93, through a pipeline, with the memory [m] at the time of the call.  State: that of the
      pipeline, with the index of SliceIterGen (iter/gen.go:29-44) in it. *)
  Definition mem_next {U} (p : pipe T U) (from : slice) (m : @mem T) : stepfn (pipe_state p (impl nat T)) U :=
    pipe_next p _ (next (slice_gen (contents m from))).

  (** The loop  for { val, err := it.Next(); if err != nil { break }; store(val) }  where [store] may change the memory and its own
      variables [D]. *)
  Section Drive.
    Context {U D : Type}.
    Variable p : pipe T U.
    Variable from : slice.
    Variable store : @mem T -> D -> U -> outcome (@mem T * D).
    Fixpoint drive (loop fuel : nat) (m : @mem T) (d : D) (st : pipe_state p (impl nat T))
      : outcome (err * (@mem T * D * pipe_state p (impl nat T))) :=
      match loop with
      | 0 => OutOfFuel
      | S loop' =>
          let! (r, st') := mem_next p from m fuel st in
          match r with
          | (val, None) => let! (m', d') := store m d val in drive loop' fuel m' d' st'
          | (_, Some e) => Done (e, (m, d, st'))
          end
      end.
  End Drive.

  (** slc[i] = val; i++, stream/stream.go:438-439 *)
  Definition store_index (into : slice) (m : @mem T) (i : nat) (val : T) : outcome (@mem T * nat) :=
    let! m' := sset m into i val in Done (m', i + 1).

  (** for i := range slc { slc[i] = zv }, stream/stream.go:431-433 *)
  Fixpoint zero_fill (into : slice) (m : @mem T) (n i : nat) : outcome (@mem T) :=
    match n with
    | 0 => Done m
    | S n' => let! m' := sset m into i zv in zero_fill into m' n' (i + 1)
    end.

  (** stream/stream.go:403-446, the first call of Next of ReduceIntoSlice(into)(p(iter.OfSlice(from))). The error and the memory. *)
  Definition into_slice (p : pipe T T) (from into : slice) (fuel : nat) (m : @mem T) : outcome (option err * @mem T) :=
    let! (e, r) := drive p from (store_index into) fuel fuel m 0 (pipe_init p _ (ofIter 0)) in
    let '(m', _, _) := r in
    match e with
    | EOI => Done (None, m')
    | _ => let! m2 := zero_fill into m' (slen into) 0 in Done (Some e, m2)
    end.

  (** io/writer/gen.go:26-31, SliceWriterGen: *slc = append( *slc, val); the variable slc points to is the state. *)
  Definition store_append (ex : nat -> nat -> nat) (m : @mem T) (s : slice) (val : T) : outcome (@mem T * slice) :=
    Done (sappend ex m s [val]).
  (** every value of the pipeline is written to OfSliceWriter(&into), io/writer/writer.go:43-45 *)
  Definition append_all (ex : nat -> nat -> nat) (p : pipe T T) (from into : slice) (fuel : nat) (m : @mem T)
    : outcome (err * (@mem T * slice)) :=
    let! (e, r) := drive p from (store_append ex) fuel fuel m into (pipe_init p _ (ofIter 0)) in
    let '(m', s, _) := r in Done (e, (m', s)).
End Mem.
