(** Model of the parts of math/math.go and stream/stream.go that work on big numbers in place: a big.Int, big.Float or big.Rat is
    an object in a heap, and the code passes pointers around, overwrites objects and may be given the same pointer twice.
    Modelled of package math/big: Abs, Add, Quo, QuoRem, Sign; the receiver of Add and Quo may be one of the arguments (the
    arguments are read before the receiver is written).  Simplification: the exponent of a big.Float is unbounded. *)
From Coq Require Import ZArith List QArith.
From Verif Require Import Base Iter Float ConvFloat.
Close Scope Q_scope.
Open Scope Z_scope.
Open Scope go_scope.

(** An address; a Go pointer is an [option addr], nil is [None].  A heap is the list of the objects allocated so far. *)
Definition addr := nat.
Definition load {V} (h : list V) (a : addr) : outcome V := match nth_error h a with Some v => Done v | None => Panicked end.
Definition store {V} (h : list V) (a : addr) (v : V) : list V := firstn a h ++ v :: skipn (S a) h.
Definition alloc {V} (h : list V) (v : V) : addr * list V := (length h, h ++ [v]).

(** What the code needs of a big type: Abs and Add (receiver, arguments), Sign, conv.ToBigOps of an int (conv/conv.go:1117-1151),
    and the entry of toDiv: dividend, divisor, the pointer the quotient is stored through. *)
Record bigops (V : Type) : Type := mkOps {
  b_abs : V -> V;
  b_add : V -> V -> V -> outcome V;
  b_sign : V -> Z;
  b_int : Z -> V;
  b_div : list V -> addr -> addr -> option addr -> outcome (option err * option addr * list V)
}.
Arguments mkOps {V}. Arguments b_abs {V}. Arguments b_add {V}. Arguments b_sign {V}. Arguments b_int {V}. Arguments b_div {V}.

(** ** big.Int: the integer *)
(** math/math.go:285-317, the big.Int entry of toDiv.  The half of the divisor and its parity are read after the quotient has
    been stored. *)
Definition div_bigint (h : list Z) (de dv : addr) (q : option addr) : outcome (option err * option addr * list Z) :=
  let '(qa, h) := match q with None => alloc h 0 | Some a => (a, h) end in
  let! dvv := load h dv in
  if Z.sgn dvv =? 0 then Done (Some DivByZeroErr, Some qa, h) else
  let! dev := load h de in
  let h := store h qa (Z.quot dev dvv) in
  let r := Z.abs (Z.rem dev dvv) in
  let! dvv := load h dv in
  let halfdv := Z.shiftr (Z.abs dvv) 1 in
  let even := Z.land (Z.abs dvv) 1 in
  let! qv := load h qa in
  if ((Z.sgn even =? 0) && (halfdv <=? r)) || ((Z.sgn even =? 1) && (halfdv <? r))
  then Done (None, Some qa, store h qa (if 0 <=? Z.sgn qv then qv + 1 else qv - 1))
  else Done (None, Some qa, h).
(** conv/bigint.go:17-19, IntToBigInt *)
Definition ops_int : bigops Z := mkOps Z.abs (fun _ x y => Done (x + y)) Z.sgn int_to_bigint div_bigint.

(** ** big.Rat: a fraction in lowest terms *)
(** math/math.go:338-355, the big.Rat entry of toDiv *)
Definition div_bigrat (h : list Q) (de dv : addr) (q : option addr) : outcome (option err * option addr * list Q) :=
  let '(qa, h) := match q with None => alloc h 0%Q | Some a => (a, h) end in
  let! dvv := load h dv in
  if Z.sgn (Qnum dvv) =? 0 then Done (Some DivByZeroErr, Some qa, h) else
  let! dev := load h de in
  Done (None, Some qa, store h qa (Qred (dev / dvv))).
Definition ops_rat : bigops Q :=
  mkOps (fun x => Qmake (Z.abs (Qnum x)) (Qden x)) (fun _ x y => Done (Qred (x + y))) (fun x => Z.sgn (Qnum x))
    int_to_bigrat div_bigrat.

(** ** big.Float: a precision and a number that is not NaN *)
Definition bfloat : Set := (Z * float)%type.
(** the sign bit *)
Definition fneg (x : float) : bool := match x with Inf n => n | Fin n _ _ => n | NaN => false end.
Definition fzero (x : float) : bool := match x with Fin _ m _ => m =? 0 | _ => false end.
(** the finite number [q], rounded to [p] bits *)
Definition to_bits (p : Z) (q : Q) : float := to_prec p (Qnum q <? 0) (Z.abs (Qnum q)) (Zpos (Qden q)).
(** the precision of the result: that of the receiver, unless it has none *)
Definition res_prec (z x y : bfloat) : Z := if fst z =? 0 then Z.max (fst x) (fst y) else fst z.
(** big.Float.Add: the exact sum rounded to nearest even; infinities of opposite signs panic *)
Definition bf_add (z x y : bfloat) : outcome bfloat :=
  let p := res_prec z x y in
  match snd x, snd y with
  | Inf a, Inf b => if Bool.eqb a b then Done (p, Inf a) else Panicked
  | Inf a, _ => Done (p, Inf a)
  | _, Inf b => Done (p, Inf b)
  | u, v => Done (p, if fzero u && fzero v then Fin (fneg u && fneg v) 0 0 else to_bits p (fvalue u + fvalue v)%Q)
  end.
(** big.Float.Quo *)
Definition bf_quo (z x y : bfloat) : outcome bfloat :=
  let p := res_prec z x y in
  let s := xorb (fneg (snd x)) (fneg (snd y)) in
  match snd x, snd y with
  | Inf _, Inf _ => Panicked
  | Inf _, _ => Done (p, Inf s)
  | _, Inf _ => Done (p, Fin s 0 0)
  | u, v => if fzero v then (if fzero u then Panicked else Done (p, Inf s))
            else if fzero u then Done (p, Fin s 0 0) else Done (p, to_bits p (fvalue u / fvalue v)%Q)
  end.
(** big.Float.Sign *)
Definition bf_sign (x : bfloat) : Z := if fzero (snd x) then 0 else if fneg (snd x) then -1 else 1.
Definition bf_abs (x : bfloat) : bfloat :=
  (fst x, match snd x with Inf _ => Inf false | Fin _ m e => Fin false m e | NaN => NaN end).
(** conv/bigfloat.go:15-20, IntToBigFloat, with the precision of the result *)
Definition bf_int (ival : Z) : bfloat := (bits_of_len (length (int_to_string ival)), int_to_bigfloat ival).
(** the error value big.ErrNaN *)
Definition err_nan : err := UserErr 3.
(** math/math.go:319-336, the big.Float entry of toDiv; big.NewFloat(0) has 53 bits *)
Definition div_bigfloat (h : list bfloat) (de dv : addr) (q : option addr) : outcome (option err * option addr * list bfloat) :=
  let '(qa, h) := match q with None => alloc h (53, Fin false 0 0) | Some a => (a, h) end in
  let! dev := load h de in
  let! dvv := load h dv in
  if ((bf_sign dev =? 0) && (bf_sign dvv =? 0)) || (is_inf (snd dev) && is_inf (snd dvv))
  then Done (Some err_nan, Some qa, h) else
  let! qv := load h qa in
  let! x := bf_quo qv dev dvv in
  Done (None, Some qa, store h qa x).
Definition ops_float : bigops bfloat := mkOps bf_abs bf_add bf_sign bf_int div_bigfloat.

(** ** Streams of pointers.  The state of a source is its own state and the heap. *)
(** the loop  for { val, err = it.Next() ... }, whose body works on the heap *)
Fixpoint heap_loop {St V A R} (nx : stepfn (St * list V) (option addr))
  (body : A -> option addr -> list V -> outcome (A * list V)) (onerr : A -> err -> list V -> outcome (R * list V))
  (loop fuel : nat) (a : A) (w : St * list V) : outcome (R * (St * list V)) :=
  match loop with
  | O => OutOfFuel
  | S loop' =>
      let! (r, w') := nx fuel w in
      match r with
      | (val, None) =>
          let! (a', h') := body a val (snd w') in
          heap_loop nx body onerr loop' fuel a' (fst w', h')
      | (_, Some e) => let! (res, h') := onerr a e (snd w') in Done (res, (fst w', h'))
      end
  end.

(** dereferencing a pointer: a method of package math/big on a nil receiver or argument panics *)
Definition deref {V} (h : list V) (p : option addr) : outcome (addr * V) :=
  match p with None => Panicked | Some a => let! v := load h a in Done (a, v) end.

Section Streams.
  Context {St V : Type} (o : bigops V).
  Variable nx : stepfn (St * list V) (option addr).

  (** stream/stream.go:902-906, AbsBigOps *)
  Definition st_abs_big : stepfn (St * list V) (option addr) := fun fuel w =>
    let! (r, w') := nx fuel w in
    match r with
    | (v, None) => let! (a, x) := deref (snd w') v in Done ((Some a, None), (fst w', store (snd w') a (b_abs o x)))
    | (_, Some e) => Done ((None, Some e), w')
    end.

  (** stream/stream.go:1087-1096, SumBigOps: sum.Add(a, b), where [sum] is the object allocated when SumBigOps was called;
      the loop is that of Reduce without identity (stream/stream.go:148-163) *)
  Definition add_into (sum : addr) (a b : option addr) (h : list V) : outcome (option addr * list V) :=
    let! (_, x) := deref h a in
    let! (_, y) := deref h b in
    let! z := load h sum in
    let! v := b_add o z x y in
    Done (Some sum, store h sum v).
  Definition st_sum_big (sum : addr) : stepfn (bool * (St * list V)) (option addr) := fun fuel st =>
    let '(done, w) := st in
    if (done : bool) then Done ((None, Some EOI), (done, w)) else
    let! (r, w') := nx fuel w in
    match r with
    | (_, Some e) => Done ((None, Some e), (true, w'))
    | (val, None) =>
        let! (res, w'') := heap_loop nx (add_into sum)
          (fun result e h => Done (match e with EOI => (result, None) | _ => (None, Some e) end, h)) fuel fuel val w' in
        Done (res, (true, w''))
    end.
  (** the call SumBigOps(it) itself: the object [sum] it allocates, and the heap afterwards *)
  Definition sum_big_new (h : list V) : addr * list V := alloc h (b_int o 0).

  (** stream/stream.go:999-1037, AvgBigOps.  Three objects are allocated at every call of the iterating function. *)
  Definition st_avg_big : stepfn (St * list V) (option addr) := fun fuel w =>
    let '(s, h) := w in
    let '(sum, h) := alloc h (b_int o 0) in
    let '(count, h) := alloc h (b_int o 0) in
    let '(one, h) := alloc h (b_int o 1) in
    heap_loop nx
      (fun _ val h =>
         let! (_, h) := add_into sum (Some sum) val h in
         let! (_, h) := add_into count (Some count) (Some one) h in
         Done (tt, h))
      (fun _ e h =>
         match e with
         | EOI =>
             let! c := load h count in
             if b_sign o c =? 0 then Done ((None, Some e), h) else
             let! (x, h) := b_div o h sum count None in
             Done ((snd x, None), h)
         | _ => Done ((None, Some e), h)
         end) fuel fuel tt (s, h).
End Streams.
