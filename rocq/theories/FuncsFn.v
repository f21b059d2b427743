(** Model of funcs/funcs.go, the functions on functions: filters, composition, ternary, TryTo, suppliers.

    Callbacks may have side effects: a Go func(T) R is a function of the argument and a world [W] returning the result
    and the new world.  Where a callback may panic its result is an option of the panic value. *)
From Coq Require Import Floats.SpecFloat.
From Verif Require Import Base Slice.
Open Scope nat_scope.

Section Filters.
  Context {T W : Type}.
  Definition gofilter : Type := T -> W -> bool * W.

  (** funcs/funcs.go:720-732, And *)
  Fixpoint and_loop (filters : list gofilter) (result : bool) (t : T) (w : W) : bool * W :=
    match filters with
    | [] => (result, w)
    | next :: rest => let (b, w') := next t w in if negb b then (b, w') else and_loop rest b t w'
    end.
  Definition fn_and (filters : list gofilter) : gofilter := and_loop filters true.

  (** funcs/funcs.go:735-739, Not *)
  Definition fn_not (f : gofilter) : gofilter := fun t w => let (b, w') := f t w in (negb b, w').

  (** funcs/funcs.go:744-756, Or *)
  Fixpoint or_loop (filters : list gofilter) (result : bool) (t : T) (w : W) : bool * W :=
    match filters with
    | [] => (result, w)
    | next :: rest => let (b, w') := next t w in if b then (b, w') else or_loop rest b t w'
    end.
  Definition fn_or (filters : list gofilter) : gofilter := or_loop filters true.
End Filters.

(** Go's comparison operators on an ordered type *)
Record gord (T : Type) : Type := GOrd { olt : T -> T -> bool; ole : T -> T -> bool; oeq : T -> T -> bool;
                                        ogt : T -> T -> bool; oge : T -> T -> bool }.
Arguments GOrd {T}. Arguments olt {T}. Arguments ole {T}. Arguments oeq {T}. Arguments ogt {T}. Arguments oge {T}.

(** integers of any width *)
Definition ord_int : gord Z := GOrd Z.ltb Z.leb Z.eqb Z.gtb Z.geb.
(** strings: lexicographic order of the bytes *)
Fixpoint str_cmp (a b : list Z) : comparison :=
  match a, b with
  | [], [] => Eq
  | [], _ => Lt
  | _, [] => Gt
  | x :: a', y :: b' => match Z.compare x y with Eq => str_cmp a' b' | c => c end
  end.
Definition ord_string : gord (list Z) :=
  GOrd (fun a b => match str_cmp a b with Lt => true | _ => false end)
       (fun a b => match str_cmp a b with Gt => false | _ => true end)
       (fun a b => match str_cmp a b with Eq => true | _ => false end)
       (fun a b => match str_cmp a b with Gt => true | _ => false end)
       (fun a b => match str_cmp a b with Lt => false | _ => true end).
(** floats: IEEE comparison, every comparison with NaN is false *)
Definition ord_float : gord spec_float :=
  GOrd SFltb SFleb SFeqb (fun a b => SFltb b a) (fun a b => SFleb b a).

Section Comparators.
  Context {T : Type} (o : gord T).
  (** funcs/funcs.go:761-765 LessThan, 768-772 LessThanEqual, 775-779 Equal, 795-799 GreaterThan, 802-806
      GreaterThanEqual *)
  Definition less_than (val : T) : T -> bool := fun t => olt o t val.
  Definition less_than_equal (val : T) : T -> bool := fun t => ole o t val.
  Definition fn_equal (val : T) : T -> bool := fun t => oeq o t val.
  Definition greater_than (val : T) : T -> bool := fun t => ogt o t val.
  Definition greater_than_equal (val : T) : T -> bool := fun t => oge o t val.
  (** funcs/funcs.go:782-792, In *)
  Fixpoint in_loop (vals : list T) (t : T) : bool :=
    match vals with [] => false | v :: r => if oeq o t v then true else in_loop r t end.
  Definition fn_in (vals : list T) : T -> bool := in_loop vals.
  (** funcs/funcs.go:811-829, IsNegative, IsNonNegative, IsPositive *)
  Definition is_negative (zero : T) : T -> bool := fun t => olt o t zero.
  Definition is_non_negative (zero : T) : T -> bool := fun t => oge o t zero.
  Definition is_positive (zero : T) : T -> bool := fun t => ogt o t zero.
End Comparators.

(** ** Composition *)
(** funcs/funcs.go:836-845, Compose *)
Fixpoint compose_loop {T W} (res : T) (fns : list (T -> W -> T * W)) (w : W) : T * W :=
  match fns with [] => (res, w) | fn :: r => let (res', w') := fn res w in compose_loop res' r w' end.
Definition fn_compose {T W} (f0 : T -> W -> T * W) (fns : list (T -> W -> T * W)) : T -> W -> T * W :=
  fun t w => let (res, w') := f0 t w in compose_loop res fns w'.
(** funcs/funcs.go:848-971, Compose2 and Compose10 (3 to 9 follow the same pattern), for pure functions *)
Definition fn_compose2 {P Q R} (f0 : P -> Q) (f1 : Q -> R) : P -> R := fun p => f1 (f0 p).
Definition fn_compose3 {P Q R S} (f0 : P -> Q) (f1 : Q -> R) (f2 : R -> S) : P -> S := fun p => f2 (f1 (f0 p)).
Definition fn_compose10 {P Q R S T U V W X Y Z} (f0 : P -> Q) (f1 : Q -> R) (f2 : R -> S) (f3 : S -> T) (f4 : T -> U)
  (f5 : U -> V) (f6 : V -> W) (f7 : W -> X) (f8 : X -> Y) (f9 : Y -> Z) : P -> Z :=
  fun p => f9 (f8 (f7 (f6 (f5 (f4 (f3 (f2 (f1 (f0 p))))))))).

(** funcs/funcs.go:976-982, Ternary *)
Definition ternary {T} (expr : bool) (trueVal falseVal : T) : T := if expr then trueVal else falseVal.
(** funcs/funcs.go:986-1000, TernaryResult; [None] is a nil func *)
Definition ternary_result {T W} {ZT : Zero T} (expr : bool) (trueVal falseVal : option (W -> T * W)) (w : W) : T * W :=
  if expr then match trueVal with Some f => f w | None => (zv, w) end
  else match falseVal with Some f => f w | None => (zv, w) end.

(** ** TryTo *)
(** the argument of panic(): nil or a value *)
Inductive pval (V : Type) : Type := PNil | PVal (v : V).
Arguments PNil {V}.
Arguments PVal {V} v.

Section TryTo.
  Context {W V : Type}.
  (** a func() that may panic: the new world, and the panic value if it panicked *)
  Definition thunk : Type := W -> W * option (pval V).

  (** Leaving a function runs its deferred calls last-deferred first, whether or not it is panicking; a panic in a
      deferred call replaces the current one.  [defers] is the stack, top first. *)
  Fixpoint run_defers (defers : list thunk) (w : W) (p : option (pval V)) : W * option (pval V) :=
    match defers with
    | [] => (w, p)
    | d :: r => let (w', p') := d w in run_defers r w' (match p' with Some v => Some v | None => p end)
    end.

  (** funcs/funcs.go:1357-1359, the range loop that defers the closers: each is pushed on the stack *)
  Fixpoint push_defers (closers : list thunk) (stack : list thunk) : list thunk :=
    match closers with [] => stack | c :: r => push_defers r (c :: stack) end.

  (** funcs/funcs.go:1348-1363, TryTo; the deferred function with recover() is at the bottom of the stack.  With
      go 1.18 in go.mod recover() returns nil after panic(nil), and the panicking stops all the same. *)
  Definition try_to (tryFn : thunk) (panicFn : V -> thunk) (closers : list thunk) : thunk := fun w =>
    let stack := push_defers closers [] in
    let (w1, p1) := tryFn w in
    let (w2, p2) := run_defers stack w1 p1 in
    match p2 with
    | Some (PVal v) => panicFn v w2
    | Some PNil => (w2, None)
    | None => (w2, None)
    end.
End TryTo.

(** ** SupplierCached *)
Section Supplier.
  Context {T W V : Type} {ZT : Zero T}.
  (** a func() T that may panic *)
  Definition supplier : Type := W -> W * (T + pval V).
  (** captured variables of the closure *)
  Record cache := Cache { isCached : bool; cachedVal : T }.
  Definition cache0 : cache := Cache false zv.

  (** funcs/funcs.go:1267-1280, the closure SupplierCached returns.  The tuple assignment happens after the call of the
      supplier, so a panic leaves both variables as they were. *)
  Definition cached_call (sup : supplier) (c : cache) (w : W) : (cache * W) * (T + pval V) :=
    if negb (isCached c) then
      match sup w with
      | (w', inl v) => ((Cache true v, w'), inl v)
      | (w', inr p) => ((c, w'), inr p)
      end
    else ((c, w), inl (cachedVal c)).

  (** n calls in a row, with their results *)
  Fixpoint cached_calls (sup : supplier) (n : nat) (c : cache) (w : W) : (cache * W) * list (T + pval V) :=
    match n with
    | 0 => ((c, w), [])
    | S n' => let '((c', w'), r) := cached_call sup c w in
              let '(st, rs) := cached_calls sup n' c' w' in (st, r :: rs)
    end.
End Supplier.

(** Two goroutines calling the same closure: each reads isCached, calls the supplier (the [n]th call returns [n]), then
    stores.  [CStart] before the test, [CCalling v] the supplier has returned v, [CDone v] returned v. *)
Inductive cpc : Set := CStart | CCalling (v : nat) | CDone (v : nat).
Record cstate : Set := CS { cs_cached : bool; cs_val : nat; cs_calls : nat; cs_t0 : cpc; cs_t1 : cpc }.
Definition cstep (t : bool) (s : cstate) : cstate :=
  let pc := if t then cs_t1 s else cs_t0 s in
  let set s' pc' := if t then CS (cs_cached s') (cs_val s') (cs_calls s') (cs_t0 s') pc'
                    else CS (cs_cached s') (cs_val s') (cs_calls s') pc' (cs_t1 s') in
  match pc with
  | CStart => if cs_cached s then set s (CDone (cs_val s))
              else set (CS (cs_cached s) (cs_val s) (S (cs_calls s)) (cs_t0 s) (cs_t1 s)) (CCalling (cs_calls s))
  | CCalling v => set (CS true v (cs_calls s) (cs_t0 s) (cs_t1 s)) (CDone v)
  | CDone _ => s
  end.

(** ** Assertions and conversions of dynamically typed values *)
(** an any value: nil, a value of the concrete type tagged [id], a []any, or a map[K]any for the key type tagged [kid]
    (its entries in iteration order, keys distinct) *)
Inductive dyn : Type := DNil | DVal (id : nat) (v : Z) | DSlice (vals : list dyn) | DMap (kid : nat) (entries : list (Z * dyn)).

(** a type argument T: a concrete type, []any, map[K]any, or an interface: [impl] says which concrete types implement it,
    [bare] that it has no methods (as for any), so that []any and map[K]any implement it too *)
Inductive atype : Type := AType (id : nat) | ASlice | AMap (kid : nat) | AIface (bare : bool) (impl : nat -> bool).

(** v.(T), the comma-ok form; an interface value keeps its dynamic value, and nil implements nothing *)
Definition type_assert (t : atype) (v : dyn) : option dyn :=
  match v, t with
  | DNil, _ => None
  | DVal id _, AType id' => if id =? id' then Some v else None
  | DVal id _, AIface bare impl => if bare || impl id then Some v else None
  | DSlice _, ASlice => Some v
  | DSlice _, AIface bare _ => if bare then Some v else None
  | DMap kid _, AMap kid' => if kid =? kid' then Some v else None
  | DMap _ _, AIface bare _ => if bare then Some v else None
  | _, _ => None
  end.

(** var zv T; a nil slice or map is given as an empty one *)
Definition zero_of (t : atype) : dyn :=
  match t with AType id => DVal id 0 | ASlice => DSlice [] | AMap kid => DMap kid [] | AIface _ _ => DNil end.

(** what the error says is wrong: the argument itself, the element at an index, the element of a row, the value of a key *)
Inductive conv_error : Set := NotContainer | BadElem (i : nat) | BadElem2 (i j : nat) | BadKey (k : Z).

(** funcs/funcs.go:1117-1124, AssertType; the flag says that there is an error *)
Definition assert_type (t : atype) (v : dyn) : dyn * bool :=
  match type_assert t v with Some x => (x, false) | None => (zero_of t, true) end.

(** the loop of funcs/funcs.go:1162-1170 (and 1204-1212): for i, v := range slc, storing into tgt[i]; [inr i] is the index
    of the first element that is not a T; the store is in range since tgt has the length of slc *)
Fixpoint convert_loop (t : atype) (i : nat) (slc : list dyn) (tgt : list dyn) : list dyn + nat :=
  match slc with
  | [] => inl tgt
  | v :: r => match type_assert t v with
              | Some x => match set_nth tgt i x with Some tgt' => convert_loop t (i + 1) r tgt' | None => inr i end
              | None => inr i
              end
  end.
(** funcs/funcs.go:1150-1174, ConvertToSlice: the slice ([None] is nil) and the error *)
Definition convert_to_slice (t : atype) (v : dyn) : option (list dyn) * option conv_error :=
  match v with
  | DSlice slc => match convert_loop t 0 slc (repeat (zero_of t) (length slc)) with
                  | inl tgt => (Some tgt, None)
                  | inr i => (None, Some (BadElem i))
                  end
  | _ => (None, Some NotContainer)
  end.

(** funcs/funcs.go:1183-1217, ConvertToSlice2; the rows of tgtD1 start out nil, which is given as empty *)
Fixpoint convert2_loop (t : atype) (i : nat) (slc : list dyn) (tgt : list (list dyn)) : list (list dyn) + conv_error :=
  match slc with
  | [] => inl tgt
  | v :: r => match v with
              | DSlice s2 => match convert_loop t 0 s2 (repeat (zero_of t) (length s2)) with
                             | inl l => match set_nth tgt i l with
                                        | Some tgt' => convert2_loop t (i + 1) r tgt'
                                        | None => inr (BadElem i)
                                        end
                             | inr j => inr (BadElem2 i j)
                             end
              | _ => inr (BadElem i)
              end
  end.
Definition convert_to_slice2 (t : atype) (v : dyn) : option (list (list dyn)) * option conv_error :=
  match v with
  | DSlice slc => match convert2_loop t 0 slc (repeat [] (length slc)) with
                  | inl tgt => (Some tgt, None)
                  | inr e => (None, Some e)
                  end
  | _ => (None, Some NotContainer)
  end.

(** funcs/funcs.go:1225-1249, ConvertToMap; [entries] in iteration order, keys distinct, so tgt[k] = val adds an entry *)
Fixpoint convert_map_loop (t : atype) (entries : list (Z * dyn)) (tgt : list (Z * dyn)) : list (Z * dyn) + Z :=
  match entries with
  | [] => inl tgt
  | (k, v) :: r => match type_assert t v with
                   | Some x => convert_map_loop t r (tgt ++ [(k, x)])
                   | None => inr k
                   end
  end.
Definition convert_to_map (kid : nat) (t : atype) (v : dyn) : option (list (Z * dyn)) * option conv_error :=
  match type_assert (AMap kid) v with
  | Some (DMap _ e) => match convert_map_loop t e [] with
                       | inl tgt => (Some tgt, None)
                       | inr k => (None, Some (BadKey k))
                       end
  | _ => (None, Some NotContainer)
  end.
