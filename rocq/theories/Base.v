(** Common vocabulary of the model: errors, Go results, outcomes of a call. *)
From Coq Require Export List Arith ZArith NArith Lia Bool.
Export ListNotations.

(** Error values.  [EOI] is iter.EOI (iter/iter.go:21), [EOF] is io.EOF, [InvalidUTF8] is
    iter.InvalidUTF8EncodingError (iter/gen.go:21), [OverflowErr], [UnderflowErr], [DivByZeroErr] are the package level errors of math/math.go;
    [UserErr n] stands for any other error value, told apart by [n]. *)
Inductive err : Set :=
| EOI
| EOF
| InvalidUTF8
| OverflowErr
| UnderflowErr
| DivByZeroErr
| UserErr (n : Z).

Definition err_eqb (a b : err) : bool :=
  match a, b with
  | EOI, EOI | EOF, EOF | InvalidUTF8, InvalidUTF8
  | OverflowErr, OverflowErr | UnderflowErr, UnderflowErr | DivByZeroErr, DivByZeroErr => true
  | UserErr n, UserErr m => Z.eqb n m
  | _, _ => false
  end.

(** A Go function returning [(T, error)] returns a pair; [None] is the nil error. *)
Definition ret (T : Type) : Type := (T * option err)%type.

(** The Go zero value of a type. *)
Class Zero (T : Type) := zv : T.
Global Instance Zero_Z : Zero Z := 0%Z.
Global Instance Zero_nat : Zero nat := 0.
Global Instance Zero_bool : Zero bool := false.
Global Instance Zero_list (T : Type) : Zero (list T) := [].
Global Instance Zero_option (T : Type) : Zero (option T) := None.
Global Instance Zero_prod (A B : Type) (za : Zero A) (zb : Zero B) : Zero (A * B) := (zv, zv).

(** Outcome of running a piece of Go code with bounded fuel for its loops. *)
Inductive outcome (A : Type) : Type :=
| Done (a : A)
| Panicked
| OutOfFuel.
Arguments Done {A} a.
Arguments Panicked {A}.
Arguments OutOfFuel {A}.

Definition obind {A B} (o : outcome A) (k : A -> outcome B) : outcome B :=
  match o with Done a => k a | Panicked => Panicked | OutOfFuel => OutOfFuel end.

(** A Go closure with captured variables [S] that returns [(T, error)]:
    one call takes the fuel for its internal loops and the current state. *)
Definition stepfn (S T : Type) : Type := nat -> S -> outcome (ret T * S).

Declare Scope go_scope.
Notation "'let!' x := e 'in' k" := (obind e (fun x => k))
  (at level 200, x pattern, e at level 100, k at level 200, right associativity) : go_scope.
