(** Model of stream/stream.go up to (not including) the parallel part.
    [nx] is the Next method of the source Iter (any implementation, any state [S]).  The transforms return
    iter.OfIter(closure): the closure is modelled as a [stepfn] over its captured variables, the resulting iterator is
    [next closure] started in [ofIter initial].  Callbacks of Map, MapError, Filter and Peek may have captured
    variables [C] of their own; the others are pure functions.  Callbacks do not panic. *)
From Verif Require Import Base Iter IterGen GoInt GoMap Slice Conv MathInt.
Open Scope go_scope.
Open Scope nat_scope.

(** The loop  for { val, err = it.Next(); if err == nil { body } else { return ... } }.
    [body] either goes on with new local variables [A] or returns an [R]. *)
Fixpoint pull_loop {S T A R} (nx : stepfn S T) (body : A -> T -> outcome (A + R)) (onerr : A -> err -> R)
  (loop fuel : nat) (a : A) (s : S) : outcome (R * S) :=
  match loop with
  | 0 => OutOfFuel
  | Datatypes.S loop' =>
      let! (r, s') := nx fuel s in
      match r with
      | (val, None) =>
          let! x := body a val in
          match x with
          | inl a' => pull_loop nx body onerr loop' fuel a' s'
          | inr res => Done (res, s')
          end
      | (_, Some e) => Done (onerr a e, s')
      end
  end.

Section Stream.
  Context {S T : Type} `{ZT : Zero T}.
  Variable nx : stepfn S T.

  (** stream/stream.go:44-57, Map. State: source, callback. *)
  Definition st_map {U C} `{Zero U} (mapper : C -> T -> U * C) : stepfn (S * C) U := fun fuel st =>
    let '(s, c) := st in
    let! (r, s') := nx fuel s in
    match r with
    | (val, None) => let '(u, c') := mapper c val in Done ((u, None), (s', c'))
    | (_, Some e) => Done ((zv, Some e), (s', c))
    end.

  (** stream/stream.go:62-77, MapError. *)
  Definition st_map_error {U C} `{Zero U} (mapper : C -> T -> ret U * C) : stepfn (S * C) U := fun fuel st =>
    let '(s, c) := st in
    let! (r, s') := nx fuel s in
    match r with
    | (val, None) =>
        let '(u, c') := mapper c val in
        match u with
        | (mval, None) => Done ((mval, None), (s', c'))
        | (_, Some e) => Done ((zv, Some e), (s', c'))
        end
    | (_, Some e) => Done ((zv, Some e), (s', c))
    end.

  (** stream/stream.go:82-104, Filter. *)
  Definition st_filter {C} (filter : C -> T -> bool * C) : stepfn (S * C) T := fun fuel st =>
    let '(s, c) := st in
    let! (r, s') := pull_loop nx
      (fun c val => let '(ok, c') := filter c val in Done (if ok : bool then inr ((val, None), c') else inl c'))
      (fun c e => ((zv, Some e), c)) fuel fuel c s in
    Done (fst r, (s', snd r)).

  (** The accumulating loop of Reduce and ReduceTo, stream/stream.go:148-163, 181-197, 234-249, 267-282. *)
  Definition reduce_loop {U} `{Zero U} (reducer : U -> T -> U) (result : U) (fuel : nat) (s : S)
    : outcome (ret U * (bool * S)) :=
    let! (r, s') := pull_loop nx (fun acc val => Done (inl (reducer acc val)))
      (fun acc e => match e with EOI => (acc, None) | _ => (zv, Some e) end) fuel fuel result s in
    Done (r, (true, s')).

  (** stream/stream.go:122-204, Reduce. [identity] is the variadic argument. State: done, source. *)
  Definition st_reduce (reducer : T -> T -> T) (identity : list T) : stepfn (bool * S) T := fun fuel st =>
    let '(done, s) := st in
    if (done : bool) then Done ((zv, Some EOI), (done, s)) else
    match identity with
    | [] =>
        let! (r, s') := nx fuel s in
        match r with
        | (_, Some e) => Done ((zv, Some e), (true, s'))
        | (val, None) => reduce_loop reducer val fuel s'
        end
    | identityVal :: _ =>
        let! (r, s') := nx fuel s in
        match r with
        | (_, Some EOI) => Done ((identityVal, None), (true, s'))
        | (_, Some e) => Done ((zv, Some e), (true, s'))
        | (val, None) => reduce_loop reducer (reducer identityVal val) fuel s'
        end
    end.

  (** stream/stream.go:208-290, ReduceTo. *)
  Definition st_reduce_to {U} `{Zero U} (reducer : U -> T -> U) (identity : list U) : stepfn (bool * S) U := fun fuel st =>
    let '(done, s) := st in
    if (done : bool) then Done ((zv, Some EOI), (done, s)) else
    match identity with
    | [] =>
        let! (r, s') := nx fuel s in
        match r with
        | (_, Some e) => Done ((zv, Some e), (true, s'))
        | (val, None) => reduce_loop reducer (reducer zv val) fuel s'
        end
    | identityVal :: _ =>
        let! (r, s') := nx fuel s in
        match r with
        | (_, Some EOI) => Done ((identityVal, None), (true, s'))
        | (_, Some e) => Done ((zv, Some e), (true, s'))
        | (val, None) => reduce_loop reducer (reducer identityVal val) fuel s'
        end
    end.

  (** stream/stream.go:295-355, ReduceToBool. *)
  Definition st_reduce_bool (predicate : T -> bool) (identity stopVal : bool) : stepfn (bool * S) bool := fun fuel st =>
    let '(done, s) := st in
    if (done : bool) then Done ((false, Some EOI), (done, s)) else
    let! (r, s') := nx fuel s in
    match r with
    | (_, Some EOI) => Done ((identity, None), (true, s'))
    | (_, Some e) => Done ((false, Some e), (true, s'))
    | (val, None) =>
        let result := predicate val in
        if Bool.eqb result stopVal then Done ((result, None), (true, s')) else
        let! (r2, s2) := pull_loop nx
          (fun _ val => let result := predicate val in
                        Done (if Bool.eqb result stopVal then inr (result, None) else inl result))
          (fun result e => match e with EOI => (result, None) | _ => (false, Some e) end) fuel fuel result s' in
        Done (r2, (true, s2))
    end.

  (** stream/stream.go:360-395, ReduceToSlice. *)
  Definition st_to_slice : stepfn (bool * S) (list T) := fun fuel st =>
    let '(done, s) := st in
    if (done : bool) then Done (([], Some EOI), (done, s)) else
    let! (r, s') := pull_loop nx (fun slc val => Done (inl (slc ++ [val])))
      (fun slc e => match e with EOI => (slc, None) | _ => ([], Some e) end) fuel fuel [] s in
    Done (r, (true, s')).

  (** stream/stream.go:403-446, ReduceIntoSlice. State: done, i, the caller's slice, source. *)
  Definition st_into_slice : stepfn (bool * nat * list T * S) (list T) := fun fuel st =>
    let '(done, i, slc, s) := st in
    if (done : bool) then Done (([], Some EOI), (done, i, slc, s)) else
    let! (r, s') := pull_loop nx
      (fun a val => let '(i, slc) := a in
         match set_nth slc i val with Some slc' => Done (inl (i + 1, slc')) | None => Panicked end)
      (fun a e => let '(i, slc) := a in
         match e with
         | EOI => ((slc, None), (i, slc))
         | _ => let slc' := map (fun _ => zv) slc in ((slc', Some e), (i, slc'))
         end) fuel fuel (i, slc) s in
    let '(res, (i', slc')) := r in
    Done (res, (true, i', slc', s')).

  (** stream/stream.go:603-637, Skip; skip counts down structurally. State: skip, source. *)
  Fixpoint skip_loop (skip : nat) (fuel : nat) (s : S) : outcome (option err * (nat * S)) :=
    match skip with
    | 0 => Done (None, (0, s))
    | Datatypes.S skip' =>
        let! (r, s') := nx fuel s in
        match r with
        | (_, Some e) => Done (Some e, (0, s'))
        | (_, None) => skip_loop skip' fuel s'
        end
    end.
  Definition st_skip : stepfn (nat * S) T := fun fuel st =>
    let '(skip, s) := st in
    let! (e, st') := skip_loop skip fuel s in
    match e with
    | Some e => Done ((zv, Some e), st')
    | None =>
        let! (r, s2) := nx fuel (snd st') in
        match r with
        | (_, Some e) => Done ((zv, Some e), (fst st', s2))
        | (val, None) => Done ((val, None), (fst st', s2))
        end
    end.

  (** stream/stream.go:644-672, Limit. State: limit, source. *)
  Definition st_limit : stepfn (nat * S) T := fun fuel st =>
    let '(limit, s) := st in
    match limit with
    | 0 => Done ((zv, Some EOI), (limit, s))
    | Datatypes.S limit' =>
        let! (r, s') := nx fuel s in
        match r with
        | (_, Some e) => Done ((zv, Some e), (limit, s'))
        | (val, None) => Done ((val, None), (limit', s'))
        end
    end.

  (** stream/stream.go:675-692, Peek; [fn] acts on its captured variables. *)
  Definition st_peek {C} (fn : C -> T -> C) : stepfn (S * C) T := fun fuel st =>
    let '(s, c) := st in
    let! (r, s') := nx fuel s in
    match r with
    | (_, Some e) => Done ((zv, Some e), (s', c))
    | (val, None) => Done ((val, None), (s', fn c val))
    end.

  (** stream/stream.go:726-742, AllMatch, AnyMatch, NoneMatch. *)
  Definition st_all_match (filter : T -> bool) := st_reduce_bool filter true false.
  Definition st_any_match (filter : T -> bool) := st_reduce_bool filter false true.
  Definition st_none_match (filter : T -> bool) := st_reduce_bool (fun t => negb (filter t)) true false.

  (** stream/stream.go:745-747, Count: int arithmetic. *)
  Definition st_count : stepfn (bool * S) Z := st_reduce_to (fun c _ => wrapS 64 (c + 1)) [0%Z].

  (** stream/stream.go:756-769, Distinct: Filter with a captured map. *)
  Definition distinct_cb (eqb : T -> T -> bool) (vals : list (T * bool)) (val : T) : bool * list (T * bool) :=
    let haveIt := match mget eqb vals val with Some b => b | None => false end in
    (negb haveIt, if haveIt then vals else mset eqb vals val true).
  Definition st_distinct (eqb : T -> T -> bool) : stepfn (S * list (T * bool)) T := st_filter (distinct_cb eqb).

  (** stream/stream.go:776-790, Duplicate. *)
  Definition duplicate_cb (eqb : T -> T -> bool) (vals : list (T * nat)) (val : T) : bool * list (T * nat) :=
    let count := match mget eqb vals val with Some n => n | None => 0 end in
    let count' := if count <? 3 then count + 1 else count in
    (count' =? 2, if count <? 3 then mset eqb vals val count' else vals).
  Definition st_duplicate (eqb : T -> T -> bool) : stepfn (S * list (T * nat)) T := st_filter (duplicate_cb eqb).

  (** The iterator Reverse and the Sort functions return: over a slice, or an immediately failing one. *)
  Inductive eager := EagerSlice (slc : list T) | EagerError (e : err).
  Definition eager_state : Type := (impl nat T + impl (impl unit T) T)%type.
  Definition eager_init (x : eager) : eager_state :=
    match x with EagerSlice _ => inl (ofIter 0) | EagerError _ => inr (ofIter (ofIter tt)) end.
  Definition eager_next (x : eager) : stepfn eager_state T := fun fuel st =>
    match x, st with
    | EagerSlice slc, inl it => let! (r, it') := next (slice_gen slc) fuel it in Done (r, inl it')
    | EagerError e, inr it =>
        let! (r, it') := next (set_error_gen (next (novalue_gen (T := T))) e) fuel it in Done (r, inr it')
    | _, _ => Panicked
    end.

  (** stream/stream.go:794-807, Reverse: drains the source when called. *)
  Definition st_reverse (fuel : nat) (s : S) : outcome (eager * S) :=
    let! (r, it) := next st_to_slice fuel (ofIter (false, s)) in
    match r with
    | (_, Some e) => Done (EagerError e, snd (src it))
    | (slc, None) => let! slc' := slice_reverse slc in Done (EagerSlice slc', snd (src it))
    end.

  (** stream/stream.go:812-882, SortOrdered, SortComplex, SortCmp, SortBy: [sort] stands for the sort.Slice call of
      funcs.SliceSort* (funcs/funcs.go:253-277). *)
  Definition st_sort (sort : list T -> list T) (fuel : nat) (s : S) : outcome (eager * S) :=
    let! (r, it) := next st_to_slice fuel (ofIter (false, s)) in
    match r with
    | (_, Some e) => Done (EagerError e, snd (src it))
    | (slc, None) => Done (EagerSlice (sort slc), snd (src it))
    end.

  (** stream/stream.go:1040-1075, Max, Min (Ordered): [gtb a b] is [a > b], [ltb a b] is [a < b]. *)
  Definition st_max (ltb : T -> T -> bool) := st_reduce (fun a b => if ltb b a then a else b) [].
  Definition st_min (ltb : T -> T -> bool) := st_reduce (fun a b => if ltb a b then a else b) [].
End Stream.
Arguments eager T : clear implicits.

(** stream/stream.go:452-500, ExpandSlices. A nil and an empty slice are both []. State: slc, idx, source. *)
Definition st_expand_slices {S T} `{Zero T} (nx : stepfn S (list T)) : stepfn (list T * nat * S) T := fun fuel st =>
  let '(slc, idx, s) := st in
  let ret_at slc idx s :=
    match nth_error slc idx with
    | Some val => Done ((val, None), (slc, idx + 1, s))
    | None => Panicked
    end in
  if (length slc =? 0) || (idx =? length slc) then
    let! (r, s') := pull_loop nx
      (fun _ slc => Done (if 0 <? length slc then inr (inl slc) else inl tt))
      (fun _ e => inr e) fuel fuel tt s in
    match r with
    | inl slc' => ret_at slc' 0 s'
    | inr e => Done ((zv, Some e), ([], idx, s'))
    end
  else ret_at slc idx s.

(** stream/stream.go:507-541, ReduceToMap. *)
Definition st_to_map {S K V} `{Zero K} `{Zero V} (eqb : K -> K -> bool) (nx : stepfn S (K * V))
  : stepfn (bool * S) (list (K * V)) := fun fuel st =>
  let '(done, s) := st in
  if (done : bool) then Done (([], Some EOI), (done, s)) else
  let! (r, s') := pull_loop nx (fun m kv => Done (inl (mset eqb m (fst kv) (snd kv))))
    (fun m e => match e with EOI => (m, None) | _ => ([], Some e) end) fuel fuel [] s in
  Done (r, (true, s')).

(** stream/stream.go:549-598, ExpandMaps. Each source map arrives as the list of its entries in the order the runtime
    will iterate it. [nilK]/[nilV]: see map_gen. State: entries of the current map not yet visited (None: m is nil),
    source.  A nil map is []. *)
Definition st_expand_maps {S K V} `{Zero K} `{Zero V} (nilK : K -> bool) (nilV : V -> bool)
  (nx : stepfn S (list (K * V))) : stepfn (option (list (K * V)) * S) (K * V) := fun fuel st =>
  let '(m, s) := st in
  let entry (kv : K * V) rest (s : S) :=
    if nilK (fst kv) || nilV (snd kv) then Panicked else Done ((kv, None), (Some rest, s)) in
  match m with
  | Some (kv :: rest) => entry kv rest s
  | _ =>
      let! (r, s') := pull_loop nx
        (fun _ m => Done (match m with kv :: rest => inr (inl (kv, rest)) | [] => inl tt end))
        (fun _ e => inr e) fuel fuel tt s in
      match r with
      | inl (kv, rest) => entry kv rest s'
      | inr e => Done ((zv, Some e), (None, s'))
      end
  end.

(** stream/stream.go:706-719, Generator applied to one iterator. [gen] acts on its own captured variables [W];
    state: fn (None before the first application).  currentIter is never assigned, so it stays nil and is different
    from every non-nil iterator. *)
Definition generator {W F} (gen : W -> F * W) (st : option F * W) (it_nil : bool) : outcome (F * (option F * W)) :=
  let '(fn, w) := st in
  let '(fn', w') := if negb it_nil then (let '(f, w') := gen w in (Some f, w')) else (fn, w) in
  match fn' with Some f => Done (f, (fn', w')) | None => Panicked end.

(** stream/stream.go:888-898, Abs, through MapError. *)
Definition abs_cb (k : ikind) : unit -> Z -> ret Z * unit := fun c v =>
  if (v <? 0)%Z then
    let v' := cast k (- v) in if (v' <? 0)%Z then ((0%Z, Some abs_err), c) else ((v', None), c)
  else ((v, None), c).
Definition st_abs {S} (k : ikind) (nx : stepfn S Z) : stepfn (S * unit) Z := st_map_error nx (abs_cb k).

(** stream/stream.go:1078-1084, Sum over an integer type. *)
Definition st_sum {S} (k : ikind) (nx : stepfn S Z) : stepfn (bool * S) Z :=
  st_reduce nx (fun a b => cast k (a + b)) [].

(** stream/stream.go:911-950, AvgInt; conv.To's errors are dropped, leaving the zero initialised variable. *)
Definition conv_or_zero (s t : ikind) (v : Z) : outcome Z :=
  let! r := to_int s t v 0 in Done (snd r).
Definition st_avg_int {S} (k : ikind) (nx : stepfn S Z) : stepfn S Z := fun fuel s =>
  let! (r, s') := pull_loop nx
    (fun a val => let '(sum, count) := a in
       Done (match add_int k val sum with
             | (Some e, _) => inr (inr e)
             | (None, sum') => inl (sum', wrapS 64 (count + 1))
             end))
    (fun a e => inl (a, e)) fuel fuel (0%Z, 0%Z) s in
  match r with
  | inr e => Done ((0%Z, Some e), s')
  | inl ((sum, count), EOI) =>
      if (count =? 0)%Z then Done ((0%Z, Some EOI), s') else
      let! de := conv_or_zero k KInt64 sum in
      let! avg := conv_or_zero KInt64 k (snd (div KInt64 de count 0)) in
      Done ((avg, None), s')
  | inl (_, e) => Done ((0%Z, Some e), s')
  end.

(** stream/stream.go:955-994, AvgUint. *)
Definition st_avg_uint {S} (k : ikind) (nx : stepfn S Z) : stepfn S Z := fun fuel s =>
  let! (r, s') := pull_loop nx
    (fun a val => let '(sum, count) := a in
       Done (match add_uint k val sum with
             | (Some e, _) => inr (inr e)
             | (None, sum') => inl (sum', wrapU 64 (count + 1))
             end))
    (fun a e => inl (a, e)) fuel fuel (0%Z, 0%Z) s in
  match r with
  | inr e => Done ((0%Z, Some e), s')
  | inl ((sum, count), EOI) =>
      if (count =? 0)%Z then Done ((0%Z, Some EOI), s') else
      let! de := conv_or_zero k KUint64 sum in
      let! avg := conv_or_zero KUint64 k (snd (div KUint64 de count 0)) in
      Done ((avg, None), s')
  | inl (_, e) => Done ((0%Z, Some e), s')
  end.
