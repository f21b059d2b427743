(** Specification vocabulary for the function combinators. *)
From Coq Require Import Floats.SpecFloat.
From Verif Require Import Base FuncsFn.
Open Scope nat_scope.

(** a filter without side effects *)
Definition pure {T W} (p : T -> bool) : T -> W -> bool * W := fun t w => (p t, w).

Section AllReturn.
  Context {T W : Type}.
  (** the filters of [a] return [b] one after the other, taking the world from w to w' *)
  Fixpoint all_return (b : bool) (a : list (T -> W -> bool * W)) (t : T) (w w' : W) : Prop :=
    match a with
    | [] => w = w'
    | f :: r => fst (f t w) = b /\ all_return b r t (snd (f t w)) w'
    end.
End AllReturn.

Definition is_nan (f : spec_float) : bool := match f with S754_nan => true | _ => false end.

(** ** TryTo: what happens, as a list of events *)
Inductive event (V : Type) : Type := ETry | ECloser (i : nat) | EHandler (v : V).
Arguments ETry {V}.
Arguments ECloser {V} i.
Arguments EHandler {V} v.

Section Events.
  Context {W V : Type}.
  (** functions that also record that they ran *)
  Definition logged (e : event V) (f : @thunk W V) : @thunk (list (event V) * W) V :=
    fun lw => let (w', p) := f (snd lw) in ((fst lw ++ [e], w'), p).
  Fixpoint logged_closers (i : nat) (closers : list (@thunk W V)) : list (@thunk (list (event V) * W) V) :=
    match closers with [] => [] | c :: r => logged (ECloser i) c :: logged_closers (S i) r end.

  (** run functions one after the other, whatever happens: the world at the end, and the values they panicked with *)
  Definition world_after (ts : list (@thunk W V)) (w : W) : W := fold_left (fun w t => fst (t w)) ts w.
  Fixpoint panics (ts : list (@thunk W V)) (w : W) : list (pval V) :=
    match ts with
    | [] => []
    | t :: r => match snd (t w) with Some v => [v] | None => [] end ++ panics r (fst (t w))
    end.
End Events.
Definition last_opt {A} (l : list A) : option A := hd_error (rev l).

(** ** SupplierCached: a supplier that counts its calls; it panics on its first [k] calls and then returns f(call number) *)
Definition counting {T} (k : nat) (f : nat -> T) : nat -> nat * (T + pval Z) :=
  fun n => (S n, if n <? k then inr (PVal 0%Z) else inl (f n)).

(** ** Which values have a type: a value of a concrete type has that type, a non-nil value has every interface type its
    own type implements, and nil has none *)
Definition has_type (t : atype) (v : dyn) : Prop :=
  match t with
  | AType id => exists x, v = DVal id x
  | ASlice => exists l, v = DSlice l
  | AMap kid => exists e, v = DMap kid e
  | AIface bare impl => v <> DNil /\ (bare = true \/ exists id x, v = DVal id x /\ impl id = true)
  end.
(** the type any *)
Definition any_type : atype := AIface true (fun _ => true).
