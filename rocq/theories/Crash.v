(** A second model of iter.OfIter and of the transforms of stream/stream.go, in which the source and the callbacks may panic
    and the caller may recover and call Next again: a panic unwinds the calls of Next, so it ends one call and leaves every
    captured variable as it was at that moment.  The functions are those of Iter.v and Stream.v, where callbacks do not panic. *)
From Verif Require Import Base Iter Slice.
Open Scope nat_scope.

(** What one call of Next can do: return, or panic *)
Inductive obs (T : Type) : Type := Ret (r : ret T) | Pan.
Arguments Ret {T} r.
Arguments Pan {T}.
(** A closure that may panic: the state it leaves is known in both cases *)
Definition pstep (S T : Type) : Type := nat -> S -> outcome (obs T * S).

(** iter/iter.go:150-180, IterImpl.Next; a panic in iterFn() leaves the fields alone *)
Definition pnext {S T} `{Zero T} (fn : pstep S T) : pstep (impl S T) T := fun fuel it =>
  match nth_error (buffer it) (length (buffer it) - 1) with
  | Some val => Done (Ret (val, None), mkImpl (fn_live it) (src it) (firstn (length (buffer it) - 1) (buffer it)) (last_err it))
  | None =>
      if fn_live it then
        obind (fn fuel (src it)) (fun '(r, s') =>
        match r with
        | Pan => Done (Pan, mkImpl true s' (buffer it) (last_err it))
        | Ret (val, None) => Done (Ret (val, None), mkImpl true s' (buffer it) (last_err it))
        | Ret (_, Some e) => Done (Ret (zv, Some e), mkImpl false s' (buffer it) (Some e))
        end)
      else Done (Ret (zv, last_err it), it)
  end.

(** The loop  for { val, err = it.Next(); ... }: [body] returns nothing when it panics.  The local variables [A] are part of the
    result, for the loops that keep theirs in captured variables. *)
Fixpoint ploop {S T A R} (nx : pstep S T) (body : A -> T -> option (A + R)) (onerr : A -> err -> R)
  (loop fuel : nat) (a : A) (s : S) : outcome (option R * A * S) :=
  match loop with
  | 0 => OutOfFuel
  | Datatypes.S loop' =>
      obind (nx fuel s) (fun '(r, s') =>
      match r with
      | Pan => Done (None, a, s')
      | Ret (val, None) =>
          match body a val with
          | None => Done (None, a, s')
          | Some (inl a') => ploop nx body onerr loop' fuel a' s'
          | Some (inr res) => Done (Some res, a, s')
          end
      | Ret (_, Some e) => Done (Some (onerr a e), a, s')
      end)
  end.
Definition obs_of {T} (r : option (ret T)) : obs T := match r with Some r => Ret r | None => Pan end.

Section Crash.
  Context {S T : Type} `{ZT : Zero T}.
  Variable nx : pstep S T.

  (** stream/stream.go:44-57, Map *)
  Definition p_map {U} `{Zero U} (mapper : T -> option U) : pstep S U := fun fuel s =>
    obind (nx fuel s) (fun '(r, s') =>
    match r with
    | Pan => Done (Pan, s')
    | Ret (val, None) => match mapper val with Some u => Done (Ret (u, None), s') | None => Done (Pan, s') end
    | Ret (_, Some e) => Done (Ret (zv, Some e), s')
    end).
  (** stream/stream.go:62-77, MapError *)
  Definition p_map_error {U} `{Zero U} (mapper : T -> option (ret U)) : pstep S U := fun fuel s =>
    obind (nx fuel s) (fun '(r, s') =>
    match r with
    | Pan => Done (Pan, s')
    | Ret (val, None) =>
        match mapper val with
        | Some (mval, None) => Done (Ret (mval, None), s')
        | Some (_, Some e) => Done (Ret (zv, Some e), s')
        | None => Done (Pan, s')
        end
    | Ret (_, Some e) => Done (Ret (zv, Some e), s')
    end).
  (** stream/stream.go:82-104, Filter *)
  Definition p_filter (filter : T -> option bool) : pstep S T := fun fuel s =>
    obind (ploop nx (fun _ val => match filter val with Some true => Some (inr (val, None)) | Some false => Some (inl tt) | None => None end)
                 (fun _ e => (zv, Some e)) fuel fuel tt s) (fun '(r, _, s') => Done (obs_of r, s')).
  (** stream/stream.go:675-692, Peek *)
  Definition p_peek (fn : T -> option unit) : pstep S T := fun fuel s =>
    obind (nx fuel s) (fun '(r, s') =>
    match r with
    | Pan => Done (Pan, s')
    | Ret (val, None) => match fn val with Some _ => Done (Ret (val, None), s') | None => Done (Pan, s') end
    | Ret (_, Some e) => Done (Ret (zv, Some e), s')
    end).
  (** stream/stream.go:603-637, Skip: skip-- comes after the call of Next *)
  Fixpoint p_skip_loop (skip : nat) (fuel : nat) (s : S) : outcome (option (option err) * (nat * S)) :=
    match skip with
    | 0 => Done (Some None, (0, s))
    | Datatypes.S skip' =>
        obind (nx fuel s) (fun '(r, s') =>
        match r with
        | Pan => Done (None, (skip, s'))
        | Ret (_, Some e) => Done (Some (Some e), (0, s'))
        | Ret (_, None) => p_skip_loop skip' fuel s'
        end)
    end.
  Definition p_skip : pstep (nat * S) T := fun fuel st =>
    obind (p_skip_loop (fst st) fuel (snd st)) (fun '(e, st') =>
    match e with
    | None => Done (Pan, st')
    | Some (Some e) => Done (Ret (zv, Some e), st')
    | Some None =>
        obind (nx fuel (snd st')) (fun '(r, s2) =>
        match r with
        | Pan => Done (Pan, (fst st', s2))
        | Ret (_, Some e) => Done (Ret (zv, Some e), (fst st', s2))
        | Ret (val, None) => Done (Ret (val, None), (fst st', s2))
        end)
    end).
  (** stream/stream.go:644-672, Limit: limit-- comes after the call of Next *)
  Definition p_limit : pstep (nat * S) T := fun fuel st =>
    let '(limit, s) := st in
    match limit with
    | 0 => Done (Ret (zv, Some EOI), (limit, s))
    | Datatypes.S limit' =>
        obind (nx fuel s) (fun '(r, s') =>
        match r with
        | Pan => Done (Pan, (limit, s'))
        | Ret (_, Some e) => Done (Ret (zv, Some e), (limit, s'))
        | Ret (val, None) => Done (Ret (val, None), (limit', s'))
        end)
    end.

  (** stream/stream.go:148-163 etc.: the accumulating loop; the result is a local variable *)
  Definition p_reduce_loop {U} `{Zero U} (reducer : U -> T -> option U) (result : U) (fuel : nat) (s : S) : outcome (obs U * (bool * S)) :=
    obind (ploop nx (fun acc val => option_map inl (reducer acc val))
                 (fun acc e => match e with EOI => (acc, None) | _ => (zv, Some e) end) fuel fuel result s)
          (fun '(r, _, s') => Done (obs_of r, (true, s'))).
  (** stream/stream.go:208-290, ReduceTo; done is set before the first call of Next *)
  Definition p_reduce_to {U} `{Zero U} (reducer : U -> T -> option U) (identity : list U) : pstep (bool * S) U := fun fuel st =>
    let '(done, s) := st in
    if (done : bool) then Done (Ret (zv, Some EOI), (done, s)) else
    obind (nx fuel s) (fun '(r, s') =>
    match identity, r with
    | _, Pan => Done (Pan, (true, s'))
    | [], Ret (_, Some e) => Done (Ret (zv, Some e), (true, s'))
    | [], Ret (val, None) =>
        match reducer zv val with None => Done (Pan, (true, s')) | Some u => p_reduce_loop reducer u fuel s' end
    | identityVal :: _, Ret (_, Some EOI) => Done (Ret (identityVal, None), (true, s'))
    | _ :: _, Ret (_, Some e) => Done (Ret (zv, Some e), (true, s'))
    | identityVal :: _, Ret (val, None) =>
        match reducer identityVal val with None => Done (Pan, (true, s')) | Some u => p_reduce_loop reducer u fuel s' end
    end).
  (** stream/stream.go:122-204, Reduce: as ReduceTo, but without an identity the first element is the first result *)
  Definition p_reduce (reducer : T -> T -> option T) (identity : list T) : pstep (bool * S) T := fun fuel st =>
    let '(done, s) := st in
    if (done : bool) then Done (Ret (zv, Some EOI), (done, s)) else
    obind (nx fuel s) (fun '(r, s') =>
    match identity, r with
    | _, Pan => Done (Pan, (true, s'))
    | [], Ret (_, Some e) => Done (Ret (zv, Some e), (true, s'))
    | [], Ret (val, None) => p_reduce_loop reducer val fuel s'
    | identityVal :: _, Ret (_, Some EOI) => Done (Ret (identityVal, None), (true, s'))
    | _ :: _, Ret (_, Some e) => Done (Ret (zv, Some e), (true, s'))
    | identityVal :: _, Ret (val, None) =>
        match reducer identityVal val with None => Done (Pan, (true, s')) | Some u => p_reduce_loop reducer u fuel s' end
    end).
  (** stream/stream.go:295-355, ReduceToBool *)
  Definition p_reduce_bool (predicate : T -> option bool) (identity stopVal : bool) : pstep (bool * S) bool := fun fuel st =>
    let '(done, s) := st in
    if (done : bool) then Done (Ret (false, Some EOI), (done, s)) else
    obind (nx fuel s) (fun '(r, s') =>
    match r with
    | Pan => Done (Pan, (true, s'))
    | Ret (_, Some EOI) => Done (Ret (identity, None), (true, s'))
    | Ret (_, Some e) => Done (Ret (false, Some e), (true, s'))
    | Ret (val, None) =>
        match predicate val with
        | None => Done (Pan, (true, s'))
        | Some result =>
            if Bool.eqb result stopVal then Done (Ret (result, None), (true, s')) else
            obind (ploop nx (fun _ val => match predicate val with
                                          | None => None
                                          | Some result => Some (if Bool.eqb result stopVal then inr (result, None) else inl result)
                                          end)
                         (fun result e => match e with EOI => (result, None) | _ => (false, Some e) end) fuel fuel result s')
                  (fun '(r2, _, s2) => Done (obs_of r2, (true, s2)))
        end
    end).
  (** stream/stream.go:360-395, ReduceToSlice *)
  Definition p_to_slice : pstep (bool * S) (list T) := fun fuel st =>
    let '(done, s) := st in
    if (done : bool) then Done (Ret ([], Some EOI), (done, s)) else
    obind (ploop nx (fun slc val => Some (inl (slc ++ [val])))
                 (fun slc e => match e with EOI => (slc, None) | _ => ([], Some e) end) fuel fuel [] s)
          (fun '(r, _, s') => Done (obs_of r, (true, s'))).
  (** stream/stream.go:403-446, ReduceIntoSlice: i and the slice are not local *)
  Definition p_into_slice : pstep (bool * nat * list T * S) (list T) := fun fuel st =>
    let '(done, i, slc, s) := st in
    if (done : bool) then Done (Ret ([], Some EOI), (done, i, slc, s)) else
    obind (ploop nx
      (fun (a : nat * list T) val => match set_nth (snd a) (fst a) val with Some slc' => Some (inl (fst a + 1, slc')) | None => None end)
      (fun a e => match e with
                  | EOI => ((snd a, None), snd a)
                  | _ => let slc' := map (fun _ => zv) (snd a) in ((slc', Some e), slc')
                  end) fuel fuel (i, slc) s)
      (fun '(r, a, s') =>
       match r with
       | None => Done (Pan, (true, fst a, snd a, s'))
       | Some (res, slc') => Done (Ret res, (true, fst a, slc', s'))
       end).
End Crash.
