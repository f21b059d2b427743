(** Model of the Must functions: the four generic ones of funcs/funcs.go, the wrappers of the other packages, and
    programs that are built from them and run by TryTo (FuncsFn.try_to).

    Every Must function of the library has the body funcs.Must(F(args)) or funcs.MustValue(F(args)), with F the function
    of that name without Must; MustDivIntQuoRem uses MustValue2. *)
From Coq Require Import QArith.
From Verif Require Import Base GoInt Decimal FuncsFn Conv Readers Union Rest Json JsonLex JsonParse JsonWrite.
From Verif Require ConvFloat.
Close Scope Q_scope.
Open Scope nat_scope.

(** the value of a panic: the error a Must function was given, or a run time error (here: a slice index out of range) *)
Inductive pv (E : Type) : Type := PErr (e : E) | PRuntime.
Arguments PErr {E} e.
Arguments PRuntime {E}.

(** funcs/funcs.go:1076-1080, Must: the panic value, if it panics *)
Definition must {E} (e : option E) : option (pv E) := match e with Some e => Some (PErr e) | None => None end.
(** funcs/funcs.go:1084-1090, MustValue *)
Definition must_value {E T} (t : T) (e : option E) : T + pv E := match e with Some e => inr (PErr e) | None => inl t end.
(** funcs/funcs.go:1094-1100, MustValue2 *)
Definition must_value2 {E T U} (t : T) (u : U) (e : option E) : (T * U) + pv E :=
  match e with Some e => inr (PErr e) | None => inl (t, u) end.
(** funcs/funcs.go:1104-1110, MustValue3 *)
Definition must_value3 {E T U V} (t : T) (u : U) (v : V) (e : option E) : (T * U * V) + pv E :=
  match e with Some e => inr (PErr e) | None => inl (t, u, v) end.

(** MustValue(F(args)): a run time panic of F is a panic of the Must function *)
Definition must_call {T} (r : outcome (option err * T)) : outcome (T + pv err) :=
  match r with
  | Done (e, t) => Done (must_value t e)
  | Panicked => Done (inr PRuntime)
  | OutOfFuel => OutOfFuel
  end.

(** ** math/decimal.go *)
(** 158-160, MustDecimal; [normalized] is the optional argument, true when absent *)
Definition must_decimal (v : Z) (scale : nat) (normalized : bool) := must_call (Done (new_decimal v scale normalized)).
(** 191-193, MustStringToDecimal *)
Definition must_string_to_decimal (s : list Z) := must_call (Done (string_to_decimal s)).
(** 569-571, MustAdd; 584-586, MustSub; 730-732, MustMul; 1013-1015, MustDiv *)
Definition must_add (d o : decimal) := must_call (dec_add d o).
Definition must_sub (d o : decimal) := must_call (dec_sub d o).
Definition must_mul (d o : decimal) := must_call (Done (dec_mul d o)).
Definition must_div (fuel : nat) (d o : decimal) := must_call (dec_div fuel d o).
(** 352-354, MustAdjustDecimalScale: the new values of the two arguments *)
Definition must_adjust_scale (d1 d2 : decimal) : outcome ((decimal * decimal) + pv err) :=
  match adjust_scale d1 d2 with
  | Done (e, a, b) => Done (must_value (a, b) e)
  | Panicked => Done (inr PRuntime)
  | OutOfFuel => OutOfFuel
  end.
(** 769-771, MustDivIntQuoRem *)
Definition must_div_int_quo_rem (d : decimal) (o : Z) : outcome ((decimal * decimal) + pv err) :=
  match div_int_quo_rem d o with
  | Done (e, q, r) => Done (must_value2 q r e)
  | Panicked => Done (inr PRuntime)
  | OutOfFuel => OutOfFuel
  end.
(** 797-799, MustDivIntAdd *)
Definition must_div_int_add (d : decimal) (o : Z) := must_call (div_int_add d o).

(** ** conv *)
(** conv/conv.go:1064-1066, MustTo: the value of the output variable afterwards, and the panic value if it panics.  The
    Must functions for one pair of types are conv/int.go:65-305, float.go:33-210, bigint.go:56-107, bigfloat.go:38, 76,
    bigrat.go:37-97; all have the same body with the conversion of that pair. *)
Definition must_to oor pl ff fb pr (s t : ConvFloat.gtype) (v o : ConvFloat.gval) : outcome (ConvFloat.gval * option (pv err)) :=
  match ConvFloat.to oor pl ff fb pr s t v o with
  | Done (e, r) => Done (r, must e)
  | Panicked => Done (o, Some PRuntime)
  | OutOfFuel => OutOfFuel
  end.
(** conv/int.go:65-67 MustIntToInt, 86-88 MustUintToInt, 129-131 MustIntToUint, 150-152 MustUintToUint *)
Definition must_int_int (s t : ikind) (ival oval : Z) : Z * option (pv err) :=
  let (e, r) := if is_signed s then if is_signed t then int_to_int s t ival oval else int_to_uint s t ival oval
                else if is_signed t then uint_to_int s t ival oval else uint_to_uint s t ival oval in (r, must e).

(** ** funcs *)
(** funcs/funcs.go:1127-1129, MustAssertType; the error carries no more than that there is one *)
Definition must_assert_type (t : atype) (v : dyn) : dyn + pv unit :=
  let (x, bad) := assert_type t v in must_value x (if bad : bool then Some tt else None).
(** funcs/funcs.go:1141-1147, MustNonEmptySlice *)
Definition must_non_empty_slice {T} (v : list T) : list T + pv unit := if length v =? 0 then inr (PErr tt) else inl v.
(** funcs/funcs.go:1177-1179, 1220-1222, 1252-1254: MustConvertToSlice, MustConvertToSlice2, MustConvertToMap *)
Definition must_convert_to_slice (t : atype) (v : dyn) := let (r, e) := convert_to_slice t v in must_value r e.
Definition must_convert_to_slice2 (t : atype) (v : dyn) := let (r, e) := convert_to_slice2 t v in must_value r e.
Definition must_convert_to_map (kid : nat) (t : atype) (v : dyn) := let (r, e) := convert_to_map kid t v in must_value r e.

(** ** encoding/json *)
(** encoding/json/write/write.go:30-32, MustWrite: the destination afterwards, and the panic value if it panics *)
Definition must_write {W} (dst : W -> list Z -> option err * W) (jv : value) (w : W) : outcome (W * option (pv err)) :=
  match write_json dst jv w with
  | Done (e, w') => Done (w', must e)
  | Panicked => Done (w, Some PRuntime)
  | OutOfFuel => OutOfFuel
  end.
(** encoding/json/parse/parse.go:335-337, MustParse *)
Definition must_parse {S} (rd : reader S) (s : S) (fuel : nat) : outcome (value + pv err) :=
  match Parse rd s fuel with
  | Done (v, e) => Done (must_value v e)
  | Panicked => Done (inr PRuntime)
  | OutOfFuel => OutOfFuel
  end.

(** ** Programs *)
(** a body for TryTo: calls of functions that return an error, each wrapped in Must *)
Section Body.
  Context {W : Type}.
  Fixpoint must_body (steps : list (W -> W * option err)) : @thunk W (pv err) := fun w =>
    match steps with
    | [] => (w, None)
    | f :: rest => let (w', e) := f w in
                   match must e with Some p => (w', Some (PVal p)) | None => must_body rest w' end
    end.
End Body.

(** an expression of chained calls: a.MustAdd(b), a.MustSub(b), a.MustMul(b), whose operands are such expressions *)
Inductive dexpr : Type := DLit (d : decimal) | DAdd (a b : dexpr) | DSub (a b : dexpr) | DMul (a b : dexpr).

(** Go evaluates the receiver, then the argument, then makes the call; a panic ends the evaluation *)
Definition call2 (f : decimal -> decimal -> outcome (decimal + pv err)) (x y : outcome (decimal + pv err)) : outcome (decimal + pv err) :=
  match x with
  | Done (inl a) => match y with Done (inl b) => f a b | r => r end
  | r => r
  end.
Fixpoint eval (e : dexpr) : outcome (decimal + pv err) :=
  match e with
  | DLit d => Done (inl d)
  | DAdd a b => call2 must_add (eval a) (eval b)
  | DSub a b => call2 must_sub (eval a) (eval b)
  | DMul a b => call2 must_mul (eval a) (eval b)
  end.

(** func() { x = e } for TryTo: [put] stores the result.  The evaluation has no unbounded loop (see
    MustProofs.eval_ends), so the last case does not arise. *)
Definition assign {W} (e : dexpr) (put : decimal -> W -> W) : @thunk W (pv err) := fun w =>
  match eval e with
  | Done (inl d) => (put d w, None)
  | Done (inr p) => (w, Some (PVal p))
  | Panicked => (w, Some (PVal PRuntime))
  | OutOfFuel => (w, None)
  end.
