(** Specification vocabulary for floating point numbers. *)
From Coq Require Import ZArith QArith Qpower Qabs.
From Verif Require Import Base Float.
Close Scope Q_scope.
Open Scope Z_scope.

(** The rational number m * b^e *)
Definition digits (b m e : Z) : Q := (inject_Z m * Qpower (inject_Z b) e)%Q.

(** [x] is a value of the format: a NaN, an infinity, or a finite number whose mantissa and exponent fit *)
Definition is_float (f : fmt) (x : float) : Prop :=
  match x with
  | Fin _ m e => 0 <= m < 2 ^ fp f /\ femin f <= e <= femax f
  | _ => True
  end.
Definition finite (x : float) : Prop := match x with Fin _ _ _ => True | _ => False end.

(** The finite float [x] denotes the number [q] *)
Definition denotes (x : float) (q : Q) : Prop :=
  match x with Fin neg m e => (q == digits 2 (if neg then - m else m) e)%Q | _ => False end.

(** [q] is a finite value of the format *)
Definition representable (f : fmt) (q : Q) : Prop := exists x, is_float f x /\ denotes x q.

(** [q] has at most [p] significant digits in base [b] *)
Definition short (b p : Z) (q : Q) : Prop := exists m e, Z.abs m < b ^ p /\ (q == digits b m e)%Q.

(** [y] is a number with at most [p] digits in base [b], and none is closer to [q] *)
Definition nearest_short (b p : Z) (q y : Q) : Prop :=
  short b p y /\ forall z, short b p z -> (Qabs (q - y) <= Qabs (q - z))%Q.
(** the same for a format *)
Definition nearest_in (f : fmt) (q : Q) (x : float) : Prop :=
  is_float f x /\ exists y, denotes x y /\ forall z, representable f z -> (Qabs (q - y) <= Qabs (q - z))%Q.
