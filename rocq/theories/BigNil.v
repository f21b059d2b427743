(** conv.To with nil pointers to big numbers: every function of package conv that takes or makes one, with math/big's methods on nil.
    Modelled of package math/big (Go 1.18): String of a nil *big.Int gives "<nil>"; every other method used here reads a field of its
    receiver or argument, which panics; Parse and SetString return nil when they fail.
    The texts are those of Literal.v. *)
From Coq Require Import ZArith List QArith.
From Verif Require Import Base Conv Float ConvFloat Literal.
Close Scope Q_scope.
Open Scope Z_scope.
Open Scope go_scope.

(** reading a field of what a pointer points to *)
Definition deref {A} (p : option A) : outcome A := match p with Some x => Done x | None => Panicked end.
Definition on {A B} (p : option A) (f : A -> outcome B) : outcome B := let! x := deref p in f x.
(** big.Int.String *)
Definition nil_text : list Z := [60; 110; 105; 108; 62].
Definition int_text (p : option Z) : list Z := match p with None => nil_text | Some z => integer_to_string z end.

(** The values of the sixteen types, pointers to big numbers nil or not. *)
Inductive nval : Type := NInt (p : option Z) | NFlt (p : option float) | NRat (p : option Q) | NVal (v : gval).

Section Nil.
  Variable oor : ikind -> float -> Z.
  Variable format_float : fsize -> float -> list Z.
  (** conv/bigfloat.go:59-74, StringToBigFloat *)
  Notation parse := (string_to_bigfloat float_parse).
  (** conv/bigfloat.go:43-45, BigIntToBigFloat: the error of StringToBigFloat is dropped *)
  Definition p_bigint_to_bigfloat (ival : option Z) : option float := snd (parse (int_text ival)).
  (** conv/float.go:63-74 and 139-151, BigIntToFloat32 and BigIntToFloat64 *)
  Definition p_bigint_to_float (s : fsize) (ival : option Z) : outcome (option err * float) :=
    let inter := p_bigint_to_bigfloat ival in
    on inter (fun x => let '(oval, acc) := bigfloat_float s x in Done (if negb acc then (Some conv_err, oval) else (None, oval))).
  (** conv/string.go:30-32, BigIntToString *)
  Definition p_bigint_to_string (ival : option Z) : list Z := int_text ival.

  Definition ok_i (r : option err * Z) : outcome (option err * nval) := Done (fst r, NVal (VI (snd r))).
  Definition ok_f (r : option err * float) : outcome (option err * nval) := Done (fst r, NVal (VF (snd r))).
  (** conv/conv.go:30-1006, convertFromTo, and 1018-1061, To: [i] is the input, [o] the value of the output variable.  What is computed
      of a number that is not nil is in ConvFloat.v; BigFloatToBigRat is that of Literal.v, with texts, and may leave nil. *)
  Definition to_nil (s t : gtype) (i o : nval) : outcome (option err * nval) :=
    match s, i, t, o with
    (* the same type *)
    | TBigInt, NInt p, TBigInt, _ => Done (None, NInt p)
    | TBigFloat, NFlt p, TBigFloat, _ => Done (None, NFlt p)
    | TBigRat, NRat p, TBigRat, _ => Done (None, NRat p)
    (* from *big.Int *)
    | TBigInt, NInt p, TI k, NVal (VI w) => on p (fun z => ok_i (via64 k (if is_signed k then bigint_to_int64 z else bigint_to_uint64 z) w))
    | TBigInt, NInt p, TF S32, NVal (VF w) => let! r := p_bigint_to_float S64 p in ok_f (via_float64 r w)
    | TBigInt, NInt p, TF S64, NVal (VF w) => let! r := p_bigint_to_float S64 p in ok_f r
    | TBigInt, NInt p, TBigFloat, _ => Done (None, NFlt (p_bigint_to_bigfloat p))
    | TBigInt, NInt p, TBigRat, _ => on p (fun z => Done (None, NRat (Some (int_to_bigrat z))))
    | TBigInt, NInt p, TString, _ => Done (None, NVal (VS (p_bigint_to_string p)))
    (* from *big.Float *)
    | TBigFloat, NFlt p, TI k, NVal (VI w) => on p (fun x => ok_i (via64 k (if is_signed k then bigfloat_to_int64 x else bigfloat_to_uint64 x) w))
    | TBigFloat, NFlt p, TF S32, NVal (VF w) => on p (fun x => ok_f (via_float64 (bigfloat_to_float S64 x) w))
    | TBigFloat, NFlt p, TF S64, NVal (VF w) => on p (fun x => ok_f (bigfloat_to_float S64 x))
    | TBigFloat, NFlt p, TBigInt, o => on p (fun x => match bigfloat_to_bigint x 0 with (None, z) => Done (None, NInt (Some z)) | (e, _) => Done (e, o) end)
    | TBigFloat, NFlt p, TBigRat, NRat w => on p (fun x => let '(e, r) := bigfloat_to_bigrat_text x w in Done (e, NRat r))
    | TBigFloat, NFlt p, TString, _ => on p (fun x => Done (None, NVal (VS (bigfloat_to_string x))))
    (* from *big.Rat *)
    | TBigRat, NRat p, TI k, NVal (VI w) => on p (fun q => ok_i (via64 k (if is_signed k then bigrat_to_int64 q else bigrat_to_uint64 q) w))
    | TBigRat, NRat p, TF S32, NVal (VF w) => on p (fun q => ok_f (via_float64 (bigrat_to_float S64 q) w))
    | TBigRat, NRat p, TF S64, NVal (VF w) => on p (fun q => ok_f (bigrat_to_float S64 q))
    | TBigRat, NRat p, TBigInt, o => on p (fun q => match bigrat_to_bigint q 0 with (None, z) => Done (None, NInt (Some z)) | (e, _) => Done (e, o) end)
    | TBigRat, NRat p, TBigFloat, _ => on p (fun q => Done (None, NFlt (Some (bigrat_to_bigfloat q))))
    | TBigRat, NRat p, TString, _ => on p (fun q => Done (None, NVal (VS (bigrat_to_string q))))
    (* from texts *)
    | TString, NVal (VS l), TBigFloat, _ => let '(e, r) := parse l in Done (e, NFlt r)
    | TString, NVal (VS l), TBigRat, _ => let '(e, r) := string_to_bigrat l in Done (e, NRat r)
    (* the rest has no nil *)
    | _, NVal v, TBigInt, o =>
        let! (e, r) := to oor float_parse format_float bigfloat_to_string rat_set_string s t v VUnspec in
        Done (e, match r with VBigInt z => NInt (Some z) | _ => match s with TString => NInt (Some 0) | _ => o end end)
    | _, NVal v, TBigFloat, o =>
        let! (e, r) := to oor float_parse format_float bigfloat_to_string rat_set_string s t v VUnspec in
        Done (e, match r with VBigFloat x => NFlt (Some x) | _ => o end)
    | _, NVal v, TBigRat, o =>
        let! (e, r) := to oor float_parse format_float bigfloat_to_string rat_set_string s t v VUnspec in
        Done (e, match r with VBigRat q => NRat (Some q) | _ => o end)
    | _, NVal v, _, NVal w => let! (e, r) := to oor float_parse format_float bigfloat_to_string rat_set_string s t v w in Done (e, NVal r)
    | _, _, _, _ => Panicked
    end.
  (** One conversion after another with fresh (zero) variables of the types [ts]: the value and its type, or the error or panic
      that ended it (a program of a user of the package, not code of /repo). *)
  Definition zero_of (t : gtype) : nval :=
    match t with TI _ => NVal (VI 0) | TF _ => NVal (VF (Fin false 0 0)) | TBigInt => NInt None | TBigFloat => NFlt None | TBigRat => NRat None | TString => NVal (VS []) end.
  Fixpoint chain (s : gtype) (i : nval) (ts : list gtype) : outcome (option err * nval) :=
    match ts with
    | [] => Done (None, i)
    | t :: ts => let! (e, v) := to_nil s t i (zero_of t) in match e with Some _ => Done (e, v) | None => chain t v ts end
    end.
End Nil.
