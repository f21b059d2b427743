(** Nil pointers: what a value of the sixteen types is. *)
From Coq Require Import String ZArith List QArith.
From Verif Require Import Base Conv Float ConvFloat ConvFloatSpec Literal BigNil.
Close Scope Q_scope.
Open Scope Z_scope.

(** The nil pointers. *)
Definition nil_of (s : gtype) (i : nval) : Prop :=
  match s, i with TBigInt, NInt None | TBigFloat, NFlt None | TBigRat, NRat None => True | _, _ => False end.
(** A variable of type [t] may hold it; pointers may be nil. *)
Definition fits (t : gtype) (o : nval) : Prop :=
  match t, o with
  | TBigInt, NInt _ | TBigFloat, NFlt _ | TBigRat, NRat _ => True
  | (TI _ | TF _ | TString), NVal v => ConvFloatSpec.well_typed t v
  | _, _ => False
  end.
(** It is this value (a pointer: not nil, and to this number). *)
Definition value_is (i : nval) (g : gval) : Prop :=
  match i with
  | NInt p => exists z, p = Some z /\ g = VBigInt z
  | NFlt p => exists x, p = Some x /\ g = VBigFloat x
  | NRat p => exists q, p = Some q /\ g = VBigRat q
  | NVal v => g = v /\ match v with VBigInt _ | VBigFloat _ | VBigRat _ | VUnspec => False | _ => True end
  end.
(** What an output variable of a plain type held before is what [w] is. *)
Definition held (o : nval) (w : gval) : Prop := forall x, o = NVal x -> w = x.
(** The text "<nil>". *)
Definition nil_written : list Z := str "<nil>"%string.
(** A nil pointer, or the text of one. *)
Definition no_number (s : gtype) (i : nval) : Prop := nil_of s i \/ s = TString /\ i = NVal (VS nil_written).
