(** Specification vocabulary for integer types. *)
From Verif Require Import Base GoInt Conv.
Open Scope Z_scope.

(** The values of an integer type. *)
Definition in_type (k : ikind) (v : Z) : Prop :=
  if is_signed k then - 2 ^ (num_bits k - 1) <= v <= 2 ^ (num_bits k - 1) - 1 else 0 <= v <= 2 ^ num_bits k - 1.

(** What an exact conversion to type [t] does to the output: store the value and return nil when the type can
    represent it, else leave the output alone and return an error. *)
Definition exact_conversion (t : ikind) (ival oval : Z) (r : option err * Z) : Prop :=
  (in_type t ival -> r = (None, ival)) /\ (~ in_type t ival -> fst r <> None /\ snd r = oval).
