(** Model of the generators of iter/gen.go that do not read io.Readers. *)
From Verif Require Import Base Iter GoInt.
Open Scope go_scope.
Open Scope nat_scope.

(** iter/gen.go:29-44, SliceIterGen. State: idx. *)
Definition slice_gen {T} `{Zero T} (slc : list T) : stepfn nat T := fun _ idx =>
  if idx <? length slc then
    match nth_error slc idx with
    | Some value => Done ((value, None), idx + 1)
    | None => Panicked
    end
  else Done ((zv, Some EOI), idx).

(** iter/gen.go:76-82, NoValueIterGen. *)
Definition novalue_gen {T} `{Zero T} : stepfn unit T := fun _ s => Done ((zv, Some EOI), s).

(** iter/gen.go:85-99, SingleValueIterGen. State: done. *)
Definition single_gen {T} `{Zero T} (value : T) : stepfn bool T := fun _ done =>
  if done then Done ((zv, Some EOI), done) else Done ((value, None), true).

(** iter/gen.go:49-72, MapIterGen.  The reflect.MapIter is modelled by the list of entries the runtime will
    still visit (any permutation of the map's entries); [nilK]/[nilV] say that a key/value is the nil value of an
    interface type K/V, on which the type assertions of line 70 panic. State: (remaining entries, done). *)
Definition map_gen {K V} `{Zero K} `{Zero V} (nilK : K -> bool) (nilV : V -> bool)
  : stepfn (list (K * V) * bool) (K * V) := fun _ st =>
  let '(mi, done) := st in
  if (done : bool) then Done ((zv, Some EOI), (mi, done)) else
  match mi with
  | [] => Done ((zv, Some EOI), (mi, true))
  | (k, v) :: mi' =>
      if nilK k || nilV v then Panicked else Done (((k, v), None), (mi', false))
  end.

(** iter/gen.go:111-154, InfiniteIterGen.  The callback may itself capture variables [C] (as the Fibonacci one
    does). State: (literalValues, accumulator, captured). *)
Definition infinite_init {T C} `{Zero T} (initials : list T) (c : C) : list T * T * C :=
  if 0 <? length initials
  then (firstn (length initials - 1) initials, nth (length initials - 1) initials zv, c)
  else ([], zv, c).

Definition infinite_gen {T C} `{Zero T} (iterative : C -> T -> T * C) : stepfn (list T * T * C) T := fun _ st =>
  let '(lits, acc, c) := st in
  match lits with
  | v :: lits' => Done ((v, None), (lits', acc, c))
  | [] => let '(acc', c') := iterative c acc in Done ((acc', None), ([], acc', c'))
  end.

(** The usual case of a callback without captured variables. *)
Definition pure_cb {T} (f : T -> T) : unit -> T -> T * unit := fun c x => (f x, c).

(** iter/gen.go:157-174, FibonnaciIterGen: int is 64 bits wide; captured variable prev2. *)
Definition fib_iterative (prev2 prev1 : Z) : Z * Z := (wrapS 64 (prev2 + prev1), prev1).
Definition fib_gen : stepfn (list Z * Z * Z) Z := infinite_gen fib_iterative.
Definition fib_init : list Z * Z * Z := infinite_init [1%Z; 1%Z] 0%Z.

(** iter/gen.go:443-477, ConcatIterGen.  Iterators live in a shared world [H] (so they may be of different kinds,
    or even share state); a nil Iter is [None]. State: (i, iter <> nil, err, world).  The captured [iter] is always
    src[i] when it is not nil, so only the flag is kept. *)
Fixpoint concat_loop {H T} `{Zero T} (its : list (option (stepfn H T))) (loop fuel : nat)
  (st : nat * bool * option err * H) : outcome (ret T * (nat * bool * option err * H)) :=
  match loop with
  | 0 => OutOfFuel
  | S loop' =>
      let '(i, cur, e, h) := st in
      if i =? length its then Done ((zv, e), st) else
      match nth_error its i with
      | None => Panicked (* index out of range: i > len(src) *)
      | Some None => concat_loop its loop' fuel (i + 1, false, e, h)
      | Some (Some nx) =>
          let! (r, h') := nx fuel h in
          match r with
          | (v, None) => Done ((v, None), (i, true, None, h'))
          | (_, Some EOI) => concat_loop its loop' fuel (i + 1, false, Some EOI, h')
          | (_, Some e') => Done ((zv, Some e'), (length its, true, Some e', h'))
          end
      end
  end.
Definition concat_gen {H T} `{Zero T} (its : list (option (stepfn H T)))
  : stepfn (nat * bool * option err * H) T := fun fuel st => concat_loop its fuel fuel st.
Definition concat_init {H} (h : H) : nat * bool * option err * H := (0, false, Some EOI, h).
