(** Several pipelines on one iterator.

    In Go the closures of all stages that were given the same Iter hold the same pointer.  In the model the state of a pipeline contains
    that of its source, so a call of a pipeline on a shared source is made with the current state of the source put into it, and leaves
    the state of the source behind for the others. *)
From Verif Require Import Base Iter IterGen Stream Pipe MemIter.
Open Scope go_scope.
Open Scope nat_scope.

(** the captured variables of a stage (stream/stream.go, the closures listed at [stage] in Pipe.v) with another source iterator *)
Definition stage_put {A B} (g : stage A B) {S1 S2} : stage_state g S1 -> S2 -> stage_state g S2 :=
  match g return stage_state g S1 -> S2 -> stage_state g S2 with
  | SMap _ _ _ => fun st s => (s, snd st)
  | SMapError _ _ _ => fun st s => (s, snd st)
  | SFilter _ _ _ => fun st s => (s, snd st)
  | SPeek _ _ _ => fun st s => (s, snd st)
  | SSkip _ _ => fun st s => (fst st, s)
  | SLimit _ _ => fun st s => (fst st, s)
  | SReduceTo _ _ _ => fun st s => (fst st, s)
  | SReduce _ _ _ => fun st s => (fst st, s)
  | SReduceBool _ _ _ => fun st s => (fst st, s)
  | SToSlice => fun st s => (fst st, s)
  | SExpand _ => fun st s => (fst st, s)
  | SToMap _ _ _ => fun st s => (fst st, s)
  | SExpandMaps _ _ => fun st s => (fst st, s)
  end.
(** the same for the Iter made of a stage, iter/iter.go:39-43 *)
Definition iter_put {A B} (g : stage A B) {S1 S2} (it : impl (stage_state g S1) B) (s : S2) : impl (stage_state g S2) B :=
  mkImpl (fn_live it) (stage_put g (src it) s) (buffer it) (last_err it).
Fixpoint pipe_put {A B} (p : pipe A B) : forall S1 S2, pipe_state p S1 -> S2 -> pipe_state p S2 :=
  match p in pipe A0 B0 return forall S1 S2, pipe_state p S1 -> S2 -> pipe_state p S2 with
  | PEnd => fun S1 S2 st s => s
  | PThen g p' => fun S1 S2 st s => pipe_put p' _ _ st (iter_put g (pipe_src p' _ st) s)
  end.

(** [k] calls of Next *)
Fixpoint ncalls {G B} (nx : stepfn G B) (fuel k : nat) (st : G) : outcome (list (ret B) * G) :=
  match k with
  | 0 => Done ([], st)
  | S k' => let! (r, st1) := nx fuel st in let! (rs, st2) := ncalls nx fuel k' st1 in Done (r :: rs, st2)
  end.

(** Two pipelines made from the same iterator, with calls of Next of one (true) or the other (false) in any order.  The answers of both. *)
Section Two.
  Context {S A B C : Type}.
  Variables (p : pipe A B) (q : pipe A C) (nx : stepfn S A).
  Fixpoint two (who : list bool) (fuel : nat) (stp : pipe_state p S) (stq : pipe_state q S) (s : S) : outcome (list (ret B) * list (ret C) * S) :=
    match who with
    | [] => Done ([], [], s)
    | true :: who' =>
        let! (r, st) := pipe_next p S nx fuel (pipe_put p S S stp s) in
        let! (o, s') := two who' fuel st stq (pipe_src p S st) in Done ((r :: fst o, snd o), s')
    | false :: who' =>
        let! (r, st) := pipe_next q S nx fuel (pipe_put q S S stq s) in
        let! (o, s') := two who' fuel stp st (pipe_src q S st) in Done ((fst o, r :: snd o), s')
    end.
End Two.

(** The same with peeks in between, by someone who holds the iterator: None stands for
    v, err := it.Next(); if err == nil { it.Unread(v) },  iter/iter.go:150-185. *)
Section Peeks.
  Context {S A B C : Type} {ZA : Zero A}.
  Variables (p : pipe A B) (q : pipe A C) (f : stepfn S A).
  Definition peek (fuel : nat) (it : impl S A) : outcome (impl S A) :=
    let! (r, it1) := next f fuel it in
    match r with (v, None) => Done (unread it1 v) | (_, Some _) => Done it1 end.
  Fixpoint two_peeks (who : list (option bool)) (fuel : nat) (stp : pipe_state p (impl S A)) (stq : pipe_state q (impl S A)) (it : impl S A)
    : outcome (list (ret B) * list (ret C) * impl S A) :=
    match who with
    | [] => Done ([], [], it)
    | None :: who' => let! it1 := peek fuel it in two_peeks who' fuel stp stq it1
    | Some true :: who' =>
        let! (r, st) := pipe_next p _ (next f) fuel (pipe_put p _ _ stp it) in
        let! (o, it') := two_peeks who' fuel st stq (pipe_src p _ st) in Done ((r :: fst o, snd o), it')
    | Some false :: who' =>
        let! (r, st) := pipe_next q _ (next f) fuel (pipe_put q _ _ stq it) in
        let! (o, it') := two_peeks who' fuel stp st (pipe_src q _ st) in Done ((fst o, r :: snd o), it')
    end.
End Peeks.

(** for i := 0; i < k; i++ { batch, err := ReduceToSlice(Limit(n)(it)).Next(); if err != nil { return }; batches = append(batches, batch) },
    with stream/stream.go:644-672 and 360-395: a new pipeline on the same iterator each time. *)
Section Batch.
  Context {S A : Type} {ZA : Zero A}.
  Definition batch_pipe (n : nat) : pipe A (list A) := PThen (SLimit ZA n) (PThen SToSlice PEnd).
  Fixpoint batches (n : nat) (nx : stepfn S A) (k fuel : nat) (s : S) : outcome (list (list A) * option err * S) :=
    match k with
    | 0 => Done ([], None, s)
    | Datatypes.S k' =>
        let! (r, st) := pipe_next (batch_pipe n) S nx fuel (pipe_init (batch_pipe n) S s) in
        match r with
        | (b, None) => let! (bs, s') := batches n nx k' fuel (pipe_src (batch_pipe n) S st) in Done ((b :: fst bs, snd bs), s')
        | (_, Some e) => Done ([], Some e, pipe_src (batch_pipe n) S st)
        end
    end.
End Batch.
