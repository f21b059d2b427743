(** Specification vocabulary for writers. *)
From Verif Require Import Base Writer.
Open Scope Z_scope.

(** all the values were accepted by the writing function, in order, leading from [s] to [s'] *)
Inductive accepted {S T : Type} (fn : S -> T -> option err * S) : S -> list T -> S -> Prop :=
| acc_nil s : accepted fn s [] s
| acc_cons s v s1 l s2 : fn s v = (None, s1) -> accepted fn s1 l s2 -> accepted fn s (v :: l) s2.

(** the last entry written for a key *)
Fixpoint last_for {K V : Type} (eqb : K -> K -> bool) (k : K) (kvs : list (K * V)) : option V :=
  match kvs with
  | [] => None
  | (k', v) :: r => match last_for eqb k r with Some w => Some w | None => if eqb k k' then Some v else None end
  end.

(** A writer of values over an io.Writer: the bytes [bytes v] go to one call of [dst]; its error is returned, and a short write
    without an error becomes errNotWritten. *)
Definition writes_through {S T} (w : iowriter S -> S -> T -> option err * S) (bytes : T -> list Z) : Prop :=
  forall (dst : iowriter S) s v n s1,
    (forall e, dst s (bytes v) = ((n, Some e), s1) -> w dst s v = (Some e, s1)) /\
    (dst s (bytes v) = ((n, None), s1) -> n = Z.of_nat (length (bytes v)) -> w dst s v = (None, s1)) /\
    (dst s (bytes v) = ((n, None), s1) -> 0 <= n < Z.of_nat (length (bytes v)) -> w dst s v = (Some errNotWritten, s1)).
