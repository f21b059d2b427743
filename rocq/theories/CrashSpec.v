(** Specification vocabulary for histories of Next calls some of which panic and are recovered by the caller. *)
From Verif Require Import Base Iter Crash.

Section Spec.
  Context {S T : Type} `{Zero T}.
  (** The call ends with [o] and leaves state [s'], whatever (large enough) fuel it is given. *)
  Definition ends (f : pstep S T) (s : S) (o : obs T) (s' : S) : Prop := exists n, forall m, n <= m -> f m s = Done (o, s').
  (** The next calls return the values [Some v], with a nil error, or panic, [None], in this order. *)
  Inductive shows (f : pstep S T) : S -> list (option T) -> S -> Prop :=
  | shows_nil s : shows f s [] s
  | shows_value s v s1 l s2 : ends f s (Ret (v, None)) s1 -> shows f s1 l s2 -> shows f s (Some v :: l) s2
  | shows_panic s s1 l s2 : ends f s Pan s1 -> shows f s1 l s2 -> shows f s (None :: l) s2.
  (** This and every later call returns the zero value and the error [e]. *)
  CoInductive over (f : pstep S T) : S -> err -> Prop :=
  | over_intro s e s' : ends f s (Ret (zv, Some e)) s' -> over f s' e -> over f s e.
  (** The complete history of an iterator whose caller recovers from every panic: values and panics, then the error for ever *)
  Definition runs (f : pstep S T) (s : S) (l : list (option T)) (e : err) : Prop := exists s', shows f s l s' /\ over f s' e.
End Spec.

(** A function applied to what a call showed *)
Definition after {T U} (f : T -> option U) (x : option T) : option U := match x with Some v => f v | None => None end.
(** What a filter lets through: accepted values, and every panic, of the source or of the predicate *)
Definition kept {T} (p : T -> option bool) (x : option T) : list (option T) :=
  match x with
  | None => [None]
  | Some v => match p v with Some true => [Some v] | Some false => [] | None => [None] end
  end.
(** All but the first [k] values; panics do not count and are not hidden. *)
Fixpoint drop_values {T} (k : nat) (l : list (option T)) : list (option T) :=
  match l with
  | [] => []
  | None :: r => None :: drop_values k r
  | Some v :: r => match k with 0 => Some v :: drop_values 0 r | S k' => drop_values k' r end
  end.
(** The first [k] values, with the panics before the last of them *)
Fixpoint take_values {T} (k : nat) (l : list (option T)) : list (option T) :=
  match k, l with
  | 0, _ => []
  | _, [] => []
  | _, None :: r => None :: take_values k r
  | S k', Some v :: r => Some v :: take_values k' r
  end.
Definition values {T} (l : list (option T)) : nat := length (filter (fun x => match x with Some _ => true | None => false end) l).
(** Folding with a function that may panic *)
Fixpoint fold_may {T U} (f : U -> T -> option U) (l : list T) (u : U) : option U :=
  match l with [] => Some u | x :: r => match f u x with Some u' => fold_may f r u' | None => None end end.

(** A source that never panics *)
Definition calm {S T} (nx : stepfn S T) : pstep S T := fun fuel s => obind (nx fuel s) (fun '(r, s') => Done (Ret r, s')).
