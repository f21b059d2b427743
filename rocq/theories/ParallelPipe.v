(** The transforms of Parallel as pipelines of Pipe.v: the program (Parallel.v, [action]) of a worker that calls Next on
    transforms(iter.OfSlice(in)) until it returns an error (stream/stream.go:1218-1228 with 403-446). *)
From Verif Require Import Base Iter Stream Pipe MemIter Parallel.
Open Scope nat_scope.
Open Scope go_scope.

(** The source iter.OfSlice(in) (iter/iter.go:91-93, iter/gen.go:29-44), as far as the worker has read the slice: the values
    [vals], and whether it has found the end of the slice.  A call that would need more of the slice than that does not return. *)
Definition known {T} {ZT : Zero T} (vals : list T) (ended : bool) : stepfn nat T := fun _ idx =>
  match nth_error vals idx with
  | Some x => Done ((x, None), idx + 1)
  | None => if ended then Done ((zv, Some EOI), idx) else Panicked
  end.

(** The state of the worker between two accesses to the slices: what it has read, the pipeline as it was when the last Next
    returned, and the fuel of the next computation (one more than the number of reads so far, since every loop of a stage reads
    its source in each turn). *)
Record worker {T U} (p : pipe T U) : Type := mkWorker {
  w_vals : list T;
  w_ended : bool;
  w_fuel : nat;
  w_pipe : pipe_state p (impl nat T)
}.
Arguments mkWorker {T U p}.
Arguments w_vals {T U p}.
Arguments w_ended {T U p}.
Arguments w_fuel {T U p}.
Arguments w_pipe {T U p}.

(** What the worker does next: if Next can be answered from what has been read, it returns that; else it reads one more value.
    Simplified: the computation begun is done over again with one more value known, which gives the same since callbacks are
    functions of their arguments and of variables of their own application (part of the pipeline's state). *)
Definition pipe_act {T U} {ZT : Zero T} (p : pipe T U) (w : worker p) : action T U (worker p) :=
  match pipe_next p _ (next (known (w_vals w) (w_ended w))) (w_fuel w) (w_pipe w) with
  | Done ((u, None), st) => AEmit u (mkWorker (w_vals w) (w_ended w) (w_fuel w) st)
  | Done ((_, Some e), _) => AEnd e
  | _ => ARead (fun o => match o with
                         | Some x => mkWorker (w_vals w ++ [x]) (w_ended w) (S (w_fuel w)) (w_pipe w)
                         | None => mkWorker (w_vals w) true (S (w_fuel w)) (w_pipe w)
                         end)
  end.
Definition pipe_worker {T U} {ZT : Zero T} (p : pipe T U) : worker p := mkWorker [] false 1 (pipe_init p _ (@ofIter nat T 0)).
