(** Specification vocabulary: Parallel over pipelines. *)
From Verif Require Import Base Iter Stream Pipe PipeSpec MemIterSpec Parallel ParallelSpec EagerPipe StreamSpec.
Open Scope nat_scope.

(** A pipeline that, on each range of the input, has read at least as many values as it has returned whenever it returns one, and
    returns no more values than the range has. *)
Definition fits {T U} (p : pipe T U) (input : list T) (rs : list (nat * nat)) : Prop :=
  forall r, In r rs -> no_faster p (seg input r) /\ length (fst (meaning p (seg input r, Some EOI))) <= length (seg input r).
(** What the pipeline makes of one range: values, and the error after them. *)
Definition values_of {T U} (p : pipe T U) (part : list T) : list U := fst (meaning p (part, Some EOI)).
Definition error_of {T U} (p : pipe T U) (part : list T) : err := match snd (meaning p (part, Some EOI)) with Some e => e | None => EOI end.

(** A pipeline that returns no more values than its range has, on every range. *)
Definition no_more {T U} (p : pipe T U) (input : list T) (rs : list (nat * nat)) : Prop :=
  forall r, In r rs -> length (values_of p (seg input r)) <= length (seg input r).

(** Pipelines of Maps and Peeks, in any order and number, and the function they apply to each value. *)
Inductive each_to : forall {A B : Type}, pipe A B -> (A -> B) -> Prop :=
| each_end {A} : each_to (@PEnd A) (fun x => x)
| each_map {A B C} (zb : Zero B) (g : A -> B) (p : pipe B C) h : each_to p h -> each_to (PThen (SMap zb (pure_map g) tt) p) (fun x => h (g x))
| each_peek {A B C} (za : Zero A) (f : C -> A -> C) c0 (p : pipe A B) h : each_to p h -> each_to (PThen (SPeek za f c0) p) h.

(** The stages of a pipeline, applied one by one, without Parallel. *)
Fixpoint stages_of {A B} (p : pipe A B) : epipe A B :=
  match p in pipe A0 B0 return epipe A0 B0 with
  | PEnd => EEnd
  | PThen g p' => EThen (Lazy g) (stages_of p')
  end.
