(** Specification vocabulary for BigCopy.v. *)
From Coq Require Import ZArith List QArith.
From Verif Require Import Base SliceMem BigCopy.
Close Scope Q_scope.
Open Scope Z_scope.

(** The number an object holds. *)
Definition holds (W : world) (a : addr) (v : Z) : Prop :=
  exists x, nth_error (w_ints W) a = Some x /\ v = (if i_neg x then - nat_value (w_mem W) (i_abs x) else nat_value (w_mem W) (i_abs x)).
(** The object is well formed: its slice lies within its array, its words have 64 bits. *)
Definition sound (W : world) (a : addr) : Prop :=
  exists x, nth_error (w_ints W) a = Some x /\ valid (w_mem W) (i_abs x) /\ Forall (fun w => 0 <= w < 2 ^ 64) (contents (w_mem W) (i_abs x)).
(** Two objects have no array in common. *)
Definition apart (W : world) (a b : addr) : Prop :=
  forall x y h k, nth_error (w_ints W) a = Some x -> nth_error (w_ints W) b = Some y -> i_abs x = Some h -> i_abs y = Some k -> arr h <> arr k.
(** No other object has changed. *)
Definition others_kept (W W' : world) (a : addr) : Prop :=
  forall b, b <> a -> nth_error (w_ints W) b <> None -> nth_error (w_ints W') b = nth_error (w_ints W) b.
