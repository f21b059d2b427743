(** Functions that keep the slice of arguments they are given: a call f(s...) passes the slice s itself, so what the caller stores
    into s afterwards is seen by the function or iterator that was made of it. *)
From Verif Require Import Base Iter IterGen SliceMem FuncsFn.
Open Scope go_scope.
Open Scope nat_scope.

(** ** Functions *)
(** A slice of functions in memory: [slot w i] is the function in element i when the world is [w]; its length [n] does not change
    (the slice variable is never assigned to).  The functions may change the world, and so the slice. *)
Section Functions.
  Context {T W : Type}.
  (** funcs/funcs.go:720-732, And: range reads the length once and element i when it gets there. *)
  Fixpoint and_live (slot : W -> nat -> T -> W -> bool * W) (n i : nat) (result : bool) (t : T) (w : W) : bool * W :=
    match n with
    | 0 => (result, w)
    | S n' => let (b, w') := slot w i t w in if negb b then (b, w') else and_live slot n' (i + 1) b t w'
    end.
  Definition kept_and slot n : T -> W -> bool * W := and_live slot n 0 true.
  (** funcs/funcs.go:744-756, Or *)
  Fixpoint or_live (slot : W -> nat -> T -> W -> bool * W) (n i : nat) (result : bool) (t : T) (w : W) : bool * W :=
    match n with
    | 0 => (result, w)
    | S n' => let (b, w') := slot w i t w in if b then (b, w') else or_live slot n' (i + 1) b t w'
    end.
  Definition kept_or slot n : T -> W -> bool * W := or_live slot n 0 true.
  (** funcs/funcs.go:836-845, Compose *)
  Fixpoint compose_live (slot : W -> nat -> T -> W -> T * W) (n i : nat) (res : T) (w : W) : T * W :=
    match n with
    | 0 => (res, w)
    | S n' => let (res', w') := slot w i res w in compose_live slot n' (i + 1) res' w'
    end.
  Definition kept_compose (f0 : T -> W -> T * W) slot n : T -> W -> T * W :=
    fun t w => let (res, w') := f0 t w in compose_live slot n 0 res w'.
End Functions.

(** funcs/funcs.go:782-792, In, called when the memory is [m]; [eq] is == *)
Fixpoint in_live {T} (eq : T -> T -> bool) (m : mem T) (val : slice) (n i : nat) (t : T) : outcome bool :=
  match n with
  | 0 => Done false
  | S n' => let! v := sget m val i in if eq t v then Done true else in_live eq m val n' (i + 1) t
  end.
Definition kept_in {T} (eq : T -> T -> bool) (val : slice) (m : mem T) (t : T) : outcome bool := in_live eq m val (slen val) 0 t.

(** ** Iterators *)
(** iter/gen.go:111-126, InfiniteIterGen, called when the memory is [m]: literalValues, accumulator. *)
Definition kept_infinite_init {T} {ZT : Zero T} (m : mem T) (initialValues : slice) : outcome (slice * T) :=
  if 0 <? slen initialValues then
    let lastIndex := slen initialValues - 1 in
    let! literalValues := reslice initialValues 0 lastIndex in
    let! accumulator := sget m initialValues lastIndex in
    Done (literalValues, accumulator)
  else Done (None, zv).
(** iter/gen.go:128-153; [env c] is the memory at call number [c].  State: literalValues, accumulator, number of calls. *)
Definition kept_infinite {T} (env : nat -> mem T) (iterative : T -> T) : stepfn (slice * T * nat) T := fun _ st =>
  let '(literalValues, accumulator, c) := st in
  if 0 <? slen literalValues then
    let! result := sget (env c) literalValues 0 in
    if 1 <? slen literalValues then
      let! rest := reslice literalValues 1 (slen literalValues) in Done ((result, None), (rest, accumulator, c + 1))
    else Done ((result, None), (None, accumulator, c + 1))
  else
    let accumulator := iterative accumulator in Done ((accumulator, None), (literalValues, accumulator, c + 1)).

(** iter/gen.go:443-477, ConcatIterGen.  [slot h i] is element i of src when the world is [h]; a nil Iter is [None].  What other code does
    between the calls of Next is part of what the Next of the iterators does to the world.  State: i, iter, err, world. *)
Section Concat.
  Context {H T : Type} {ZT : Zero T}.
  Variables (slot : H -> nat -> option (stepfn H T)) (n : nat).
  Definition cstate : Type := nat * option (stepfn H T) * option err * H.
  Fixpoint concat_live (loop fuel : nat) (st : cstate) : outcome (ret T * cstate) :=
    match loop with
    | 0 => OutOfFuel
    | S loop' =>
        let '(i, iter, err, h) := st in
        if i =? n then Done ((zv, err), st) else
        let iter := match iter with Some _ => iter | None => slot h i end in
        match iter with
        | None => concat_live loop' fuel (i + 1, None, err, h)
        | Some nx =>
            let! (r, h') := nx fuel h in
            match r with
            | (v, None) => Done ((v, None), (i, iter, None, h'))
            | (_, Some EOI) => concat_live loop' fuel (i + 1, None, Some EOI, h')
            | (_, Some e) => Done ((zv, Some e), (n, iter, Some e, h'))
            end
        end
    end.
  Definition kept_concat : stepfn cstate T := fun fuel st => concat_live fuel fuel st.
  Definition kept_concat_init (h : H) : cstate := (0, None, Some EOI, h).
End Concat.

(** ** io *)
(** io/io.go:36-48, ErrorReader.Read(p), [input] being r.input and [pos] r.pos; numBytes is at most len(p). *)
Definition error_read_mem (input p : slice) (e : err) (pos : nat) (m : mem Z) : outcome ((nat * option err) * (nat * mem Z)) :=
  if slen input <=? pos then Done ((0, Some e), (pos, m)) else
  let numBytes := Nat.min (slen input) (slen p) in
  let! dst := reslice p 0 numBytes in
  let! src := reslice input pos (pos + numBytes) in
  Done ((numBytes, None), (pos + numBytes, scopy m dst src)).

(** io/io.go:59-62, NewErrorWriter(count, err): the output *)
Definition new_error_writer (count : Z) (m : mem Z) : mem Z * slice := smake m 0 (Z.to_nat (Z.max 0 count)).
(** io/io.go:64-80, ErrorWriter.Write(p), [output] being w.output, which is what Output (83-85) returns. *)
Definition error_write_mem (ex : nat -> nat -> nat) (count : Z) (e : err) (output p : slice) (m : mem Z)
  : outcome ((Z * option err) * (mem Z * slice)) :=
  if (Z.of_nat (slen output) =? count)%Z then Done ((0%Z, Some e), (m, output)) else
  if (count <? 0)%Z then Done ((0%Z, None), (m, output)) else
  let numBytes := Z.min (Z.of_nat (slen p)) (count - Z.of_nat (slen output)) in
  let! src := reslice p 0 (Z.to_nat numBytes) in
  Done ((numBytes, None), sappend ex m output (contents m src)).
