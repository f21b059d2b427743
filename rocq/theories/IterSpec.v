(** Specification vocabulary for iterators: what a caller who only calls Next can observe. *)
From Verif Require Import Base Iter.

Section Spec.
  Context {S T : Type} `{Zero T}.

  (** The call returns [r] and leaves state [s'], whatever (large enough) fuel it is given. *)
  Definition returns (f : stepfn S T) (s : S) (r : ret T) (s' : S) : Prop :=
    exists n, forall m, n <= m -> f m s = Done (r, s').

  Definition panics (f : stepfn S T) (s : S) : Prop :=
    exists n, forall m, n <= m -> f m s = Panicked.

  (** [emits f s l s']: the next [length l] calls return the values [l], in order, with a nil error,
      and lead to state [s']. *)
  Inductive emits (f : stepfn S T) : S -> list T -> S -> Prop :=
  | emits_nil s : emits f s [] s
  | emits_cons s v s1 l s2 :
      returns f s (v, None) s1 -> emits f s1 l s2 -> emits f s (v :: l) s2.

  (** [fails f s e s']: the next call returns the error [e] (with some value). *)
  Definition fails (f : stepfn S T) (s : S) (e : err) (s' : S) : Prop :=
    exists v, returns f s (v, Some e) s'.

  (** [stuck f s e]: this and every later call returns the zero value and the error [e]. *)
  CoInductive stuck (f : stepfn S T) : S -> err -> Prop :=
  | stuck_intro s e s' : returns f s (zv, Some e) s' -> stuck f s' e -> stuck f s e.

  (** [yields f s l e]: complete observable behaviour of a finite iterator: the values [l], in order,
      then (zero value, e) for ever. *)
  Definition yields (f : stepfn S T) (s : S) (l : list T) (e : err) : Prop :=
    exists s', emits f s l s' /\ stuck f s' e.

  (** The abstract iterator a history of Next/Unread is compared with: the list of values still to come and the
      error after them; Unread puts a value in front, Next takes the first one. One output per Next. *)
  Fixpoint spec_ops (ops : list (iop T)) (l : list T) (e : err) : list (ret T) :=
    match ops with
    | [] => []
    | OUnread v :: ops' => spec_ops ops' (v :: l) e
    | ONext :: ops' =>
        match l with
        | [] => (zv, Some e) :: spec_ops ops' [] e
        | v :: l' => (v, None) :: spec_ops ops' l' e
        end
    end.

  (** The history never asks for more than [n] values plus those it unread. *)
  Fixpoint enough (ops : list (iop T)) (n : nat) : bool :=
    match ops with
    | [] => true
    | OUnread _ :: ops' => enough ops' (Datatypes.S n)
    | ONext :: ops' => match n with 0 => false | Datatypes.S k => enough ops' k end
    end.
End Spec.

(** Sequential composition of iterators over a shared world: what Concat is meant to produce. A nil iterator
    contributes nothing; EOI moves on to the next; any other error ends the whole, later iterators untouched. *)
Inductive seq_run {H T : Type} : list (option (stepfn H T)) -> H -> list T -> err -> H -> Prop :=
| seq_nil h : seq_run [] h [] EOI h
| seq_skip its h l e h' : seq_run its h l e h' -> seq_run (None :: its) h l e h'
| seq_ok f its h l1 h1 h2 l2 e h3 :
    emits f h l1 h1 -> fails f h1 EOI h2 -> seq_run its h2 l2 e h3 ->
    seq_run (Some f :: its) h (l1 ++ l2) e h3
| seq_err f its h l1 h1 e h2 :
    emits f h l1 h1 -> fails f h1 e h2 -> e <> EOI -> seq_run (Some f :: its) h l1 e h2.

(** The Fibonacci numbers: 0, 1, 1, 2, 3, ... *)
Fixpoint fib (n : nat) : Z :=
  match n with
  | 0 => 0%Z
  | S n' => match n' with 0 => 1%Z | S n'' => (fib n' + fib n'')%Z end
  end.

(** An OfIter iterator that has returned the error [e] and has nothing unread. *)
Definition dead {S T : Type} (s : S) (e : err) : impl S T := mkImpl false s [] (Some e).

(** Independent iterators, each with its own state: the world is the list of their states, the i-th acts on the
    i-th component only. *)
Definition on_nth {S T : Type} (i : nat) (f : stepfn S T) : stepfn (list S) T := fun fuel w =>
  match nth_error w i with
  | None => Panicked
  | Some s => obind (f fuel s) (fun rs => Done (fst rs, firstn i w ++ snd rs :: skipn (Datatypes.S i) w))
  end.

Definition indep {S T : Type} (fs : list (stepfn S T)) : list (option (stepfn (list S) T)) :=
  map (fun p => Some (on_nth (fst p) (snd p))) (combine (seq 0 (length fs)) fs).
