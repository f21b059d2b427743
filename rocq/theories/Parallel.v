(** Model of the parallel part of stream/stream.go: the ranges and the worker goroutines over shared slices. *)
From Coq Require Import QArith Qround ZifyNat.
From Verif Require Import Base Iter IterGen Slice Stream Float.
Close Scope Q_scope.
Close Scope Z_scope.
Open Scope nat_scope.
Open Scope go_scope.

(** ** Ranges *)

(** The loop of stream/stream.go:1112-1117 and 1149-1154: [i] ranges of [bucketSize] items from [start] on. *)
Fixpoint bucket_loop (i start bucketSize : nat) : list (nat * nat) :=
  match i with
  | 0 => []
  | S i' => let end_ := start + bucketSize in (start, end_) :: bucket_loop i' end_ bucketSize
  end.

(** stream/stream.go:1108-1121 (no PInfo) and 1143-1158 (Items): ranges of a given size, plus one for the remainder.
    bits.Div panics when the divisor is 0. *)
Definition bucket_ranges (numItems bucketSize : nat) : outcome (list (nat * nat)) :=
  if bucketSize =? 0 then Panicked else
  let numThreads := numItems / bucketSize in
  let remainder := numItems mod bucketSize in
  Done (bucket_loop numThreads 0 bucketSize ++
        if 0 <? remainder then [(numItems - remainder, numItems)] else []).

(** stream/stream.go:1132-1140, the loop of the Threads case. *)
Fixpoint thread_loop (fuel start numItems bucketSize remainder : nat) : outcome (list (nat * nat)) :=
  match fuel with
  | 0 => OutOfFuel
  | S fuel' =>
      if start <? numItems then
        let end0 := start + bucketSize in
        let '(end_, remainder') := if 0 <? remainder then (end0 + 1, remainder - 1) else (end0, remainder) in
        let! rest := thread_loop fuel' end_ numItems bucketSize remainder' in
        Done ((start, end_) :: rest)
      else Done []
  end.

(** *** The floating point computations of generateRanges *)

(** float64(v) of an integer *)
Definition f64_of (v : Z) : float := to_fmt f64 (v <? 0)%Z (Z.abs v) 1.
(** math.Sqrt of a float64 that is not negative: the correctly rounded square root.  sqrt(n/d) = sqrt(n*d*4^64)/(d*2^64);
    the integer square root has at least 64 bits, and a last bit says whether it is exact, so rounding once is right. *)
Definition sqrt64 (x : float) : float :=
  match x with
  | Fin false m e =>
      let '(n, d) := frac m e in
      let r := (n * d * 4 ^ 64)%Z in
      let s := Z.sqrt r in
      to_fmt f64 false (2 * s + (if s * s =? r then 0 else 1))%Z (2 * (d * 2 ^ 64))%Z
  | _ => x
  end.
(** math.Round of a float64 that is not negative: to the nearest integer, halves up *)
Definition round64 (x : float) : float := f64_of (Qfloor (fvalue x + (1 # 2))).
(** math.Min and math.Max of finite float64s *)
Definition min64 (x y : float) : float := if Qle_bool (fvalue x) (fvalue y) then x else y.
Definition max64 (x y : float) : float := if Qle_bool (fvalue x) (fvalue y) then y else x.
(** uint(x) of a float64 that is not negative *)
Definition uint_of (x : float) : nat := Z.to_nat (Qfloor (fvalue x)).

(** PInfo, stream/stream.go:20-32; N is an int. [PNone]: no PInfo. *)
Inductive pinfo := PNone | PThreads (n : Z) | PItems (n : Z).

(** stream/stream.go:1108 *)
Definition bucket_size (numItems : nat) : nat := uint_of (round64 (sqrt64 (f64_of (Z.of_nat numItems)))).
(** stream/stream.go:1127 and 1143: uint(gomath.Min(float64(numItems), gomath.Max(1, float64(N)))) *)
Definition clamp (numItems : nat) (n : Z) : nat := uint_of (min64 (f64_of (Z.of_nat numItems)) (max64 (f64_of 1) (f64_of n))).

(** stream/stream.go:1102-1160, generateRanges; uint arithmetic stays below numItems, so nat is exact.
    The Threads loop runs at most numItems+1 times when bucketSize > 0. *)
Definition generate_ranges (numItems : nat) (info : pinfo) : outcome (list (nat * nat)) :=
  match info with
  | PNone => bucket_ranges numItems (bucket_size numItems)
  | PThreads n =>
      let numThreads := clamp numItems n in
      if numThreads =? 0 then Panicked else
      thread_loop (S numItems) 0 numItems (numItems / numThreads) (numItems mod numThreads)
  | PItems n => bucket_ranges numItems (clamp numItems n)
  end.

(** ** Workers *)

(** What a transform applied to an iterator does next, seen from the worker that pulls from it: read one value from
    its source (None: the source is exhausted), return one value to its caller, return an error (EOI at the end), or panic.
    This is the transform's control flow cut at its interactions with the two slices; everything in between is local
    to the goroutine.  Transforms share no captured variables between applications. *)
Inductive action (T U Q : Type) :=
| ARead (k : option T -> Q)
| AEmit (u : U) (q : Q)
| AEnd (e : err)
| ACrash.   (* a callback of the transform panics *)
Arguments ARead {T U Q}. Arguments AEmit {T U Q}. Arguments AEnd {T U Q}. Arguments ACrash {T U Q}.

(** Map (stream/stream.go:44-57) as such a program: read, return the mapped value; MapError (62-77) likewise;
    Filter (82-104) reads until a value matches. *)
Inductive mapq (U : Type) := MRead | MEmit (u : U) | MEnd (e : err).
Arguments MRead {U}. Arguments MEmit {U}. Arguments MEnd {U}.
Definition map_error_act {T U} (f : T -> ret U) (q : mapq U) : action T U (mapq U) :=
  match q with
  | MRead => ARead (fun o => match o with
                             | Some x => match f x with (u, None) => MEmit u | (_, Some e) => MEnd e end
                             | None => MEnd EOI
                             end)
  | MEmit u => AEmit u MRead
  | MEnd e => AEnd e
  end.
Definition map_act {T U} (f : T -> U) := map_error_act (fun x => (f x, None)).
Definition filter_act {T} (p : T -> bool) (q : mapq T) : action T T (mapq T) :=
  match q with
  | MRead => ARead (fun o => match o with Some x => if p x then MEmit x else MRead | None => MEnd EOI end)
  | MEmit u => AEmit u MRead
  | MEnd e => AEnd e
  end.

(** Map with a callback that panics for some values (None); the state None: it has panicked. *)
Definition map_crash_act {T U} (f : T -> option U) (q : option (mapq U)) : action T U (option (mapq U)) :=
  match q with
  | Some MRead => ARead (fun o => match o with Some x => option_map MEmit (f x) | None => Some (MEnd EOI) end)
  | Some (MEmit u) => AEmit u (Some MRead)
  | Some (MEnd e) => AEnd e
  | None => ACrash
  end.

(** Where a worker stands in threadFn / ReduceIntoSlice (stream/stream.go:1218-1228, 403-446):
    running the transform with [rd] values read and [wr] values written; zeroing its output after an error, at index
    [i]; finished with its slot of errs; dead by an index out of range panic, or a panic of a callback: nothing in threadFn
    recovers, so either ends the program. *)
Inductive wstate (Q : Type) :=
| WRun (q : Q) (rd wr : nat)
| WZero (e : err) (i : nat)
| WDone (e : option err)
| WCrash.
Arguments WRun {Q}. Arguments WZero {Q}. Arguments WDone {Q}. Arguments WCrash {Q}.

Section Workers.
  Context {T U Q : Type} `{ZU : Zero U}.
  Variable act : Q -> action T U Q.
  (** [Some w]: T and U are the same type ([w] is the identity) and output is the input slice itself
      (stream/stream.go:1208-1210): the memory keeps two views of it, every write goes to both.
      [None]: separate slices. *)
  Variable alias : option (U -> T).

  (** The memory: the input slice and the output slice. *)
  Definition mem : Type := (list T * list U)%type.

  (** One element write, out[i] = u, bounds checked by the sub-slice's length before. *)
  Definition mwrite (m : mem) (i : nat) (u : U) : option mem :=
    match set_nth (snd m) i u with
    | None => None
    | Some out' =>
        match alias with
        | None => Some (fst m, out')
        | Some w => match set_nth (fst m) i (w u) with Some in' => Some (in', out') | None => None end
        end
    end.

  (** One atomic step of the worker for the range [lo, hi): at most one access to the memory. A worker that has
      finished does nothing. *)
  Definition wstep (lo hi : nat) (w : wstate Q) (m : mem) : wstate Q * mem :=
    match w with
    | WRun q rd wr =>
        match act q with
        | ARead k =>
            if rd <? hi - lo
            then match nth_error (fst m) (lo + rd) with
                 | Some x => (WRun (k (Some x)) (rd + 1) wr, m)
                 | None => (WCrash, m)
                 end
            else (WRun (k None) rd wr, m)
        | AEmit u q' =>
            if wr <? hi - lo
            then match mwrite m (lo + wr) u with Some m' => (WRun q' rd (wr + 1), m') | None => (WCrash, m) end
            else (WCrash, m)
        | AEnd EOI => (WDone None, m)
        | AEnd e => (WZero e 0, m)
        | ACrash => (WCrash, m)
        end
    | WZero e i =>
        if i <? hi - lo
        then match mwrite m (lo + i) zv with Some m' => (WZero e (i + 1), m') | None => (WCrash, m) end
        else (WDone (Some e), m)
    | WDone _ | WCrash => (w, m)
    end.

  (** All workers and the memory; one scheduler choice lets worker [t] do one step. *)
  Definition gstate : Type := (list (wstate Q) * mem)%type.
  Definition gstep (ranges : list (nat * nat)) (t : nat) (g : gstate) : gstate :=
    match nth_error ranges t, nth_error (fst g) t with
    | Some (lo, hi), Some w =>
        let '(w', m') := wstep lo hi w (snd g) in
        (match set_nth (fst g) t w' with Some ws => ws | None => fst g end, m')
    | _, _ => g
    end.
  (** A schedule: the sequence of scheduler choices. *)
  Definition grun (ranges : list (nat * nat)) (sched : list nat) (g : gstate) : gstate :=
    fold_left (fun g t => gstep ranges t g) sched g.

  (** stream/stream.go:1230-1234: one worker per range, each at the start of the transform. *)
  Definition ginit (q0 : Q) (ranges : list (nat * nat)) (m : mem) : gstate :=
    (map (fun _ => WRun q0 0 0) ranges, m).

  (** wg.Wait() has returned: every worker has called wg.Done. *)
  Definition all_done (g : gstate) : Prop := Forall (fun w => exists e, w = WDone e) (fst g).

  (** stream/stream.go:1240-1247: the first non-nil entry of errs. *)
  Fixpoint first_error (ws : list (wstate Q)) : option err :=
    match ws with
    | [] => None
    | WDone (Some e) :: _ => Some e
    | _ :: r => first_error r
    end.
End Workers.

(** The iterator Parallel returns. *)
Inductive par_result (T U : Type) :=
| PError (e : err)            (* SetError(OfEmpty, err) *)
| PEmpty                      (* OfEmpty *)
| POne (x : T)                (* transforms(OfOne(x)), in the calling goroutine *)
| PSlice (out : list U).      (* OfSlice(output) *)
Arguments PError {T U}. Arguments PEmpty {T U}. Arguments POne {T U}. Arguments PSlice {T U}.

(** stream/stream.go:1183-1260, Parallel, from the result of ReduceToSlice(source).Next(), for one schedule of the
    workers. [out0] is the output slice before the workers start. *)
Inductive parallel {T U Q} `{Zero U} (act : Q -> action T U Q) (q0 : Q) (alias : option (U -> T)) (out0 : list T -> list U)
  (info : pinfo) : ret (list T) -> list nat -> par_result T U -> Prop :=
| par_error l e : parallel act q0 alias out0 info (l, Some e) [] (PError e)
| par_empty : parallel act q0 alias out0 info ([], None) [] PEmpty
| par_one x : parallel act q0 alias out0 info ([x], None) [] (POne x)
| par_many input ranges sched :
    2 <= length input ->
    generate_ranges (length input) info = Done ranges ->
    let g := grun act alias ranges sched (ginit q0 ranges (input, out0 input)) in
    all_done g ->
    parallel act q0 alias out0 info (input, None) sched
      (match first_error (fst g) with None => PSlice (snd (snd g)) | Some e => PError e end).

(** stream/stream.go:1203-1213: T and U the same type / different types. *)
Definition same_type {T} : option (T -> T) := Some (fun x => x).
Definition out_same {T} (input : list T) : list T := input.
Definition out_fresh {T U} `{Zero U} (input : list T) : list U := repeat zv (length input).
