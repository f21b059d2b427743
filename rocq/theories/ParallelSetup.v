(** Model of two decisions made when stream.Parallel starts its workers: which output slice they write to
    (stream/stream.go:1203-1213) and, when the transforms come from Generator, which transform each of them applies
    (stream/stream.go:706-719 called from 1224). *)
From Verif Require Import Base.
Open Scope nat_scope.

(** ** The output slice *)
(** A type argument: an interface type or any other, told apart by a number. *)
Inductive gotype : Set := TConcrete (n : nat) | TInterface (n : nat).
Definition gotype_eqb (a b : gotype) : bool :=
  match a, b with
  | TConcrete n, TConcrete m => n =? m
  | TInterface n, TInterface m => n =? m
  | _, _ => false
  end.
(** reflect.TypeOf(zt) for the zero value zt of the type: the zero value of an interface type is the nil interface value,
    for which TypeOf returns nil. *)
Definition typeof_zero (t : gotype) : option gotype := match t with TConcrete _ => Some t | TInterface _ => None end.
Definition rtype_eqb (a b : option gotype) : bool :=
  match a, b with Some a, Some b => gotype_eqb a b | None, None => true | _, _ => false end.
(** What Parallel does with [numItems] items, as far as the output slice goes. *)
Inductive output_slice : Set :=
| NoOutput       (* 0 or 1 items: no workers *)
| InPlace        (* output = any(input).([]U), the input slice itself *)
| Separate.      (* make([]U, numItems) *)
(** stream/stream.go:1190-1213; a failed type assertion panics *)
Definition choose_output (t u : gotype) (numItems : nat) : outcome output_slice :=
  match numItems with
  | 0 | 1 => Done NoOutput
  | _ => if rtype_eqb (typeof_zero t) (typeof_zero u)
         then if gotype_eqb t u then Done InPlace else Panicked
         else Done Separate
  end.

(** ** Workers that share one Generator *)
Section Shared.
  Context {W F : Type}.
  (** the generator passed to Generator, with its captured variables; one call is taken as atomic *)
  Variable gen : W -> F * W.
  (** A worker that applies the transform: before the call of gen; with its result; after assigning fn; applying a transform.
      currentIter is never assigned (stream/stream.go:712), so gen is always called. *)
  Inductive gpc := GStart | GMade (f : F) | GStored | GApplies (f : F) | GNilCall.
  (** The workers, the captured variable fn of Generator, the captured variables of gen. *)
  Record gshared := mkShared { workers : list gpc; fnvar : option F; genvars : W }.
  Fixpoint put {X} (l : list X) (i : nat) (x : X) : list X :=
    match l, i with [], _ => [] | _ :: r, 0 => x :: r | y :: r, S i => y :: put r i x end.
  (** one step of worker [t] *)
  Definition sstep (g : gshared) (t : nat) : gshared :=
    match nth_error (workers g) t with
    | Some GStart => let '(f, w) := gen (genvars g) in mkShared (put (workers g) t (GMade f)) (fnvar g) w
    | Some (GMade f) => mkShared (put (workers g) t GStored) (Some f) (genvars g)
    | Some GStored =>
        mkShared (put (workers g) t (match fnvar g with Some f => GApplies f | None => GNilCall end)) (fnvar g) (genvars g)
    | _ => g
    end.
  Definition srun (sched : list nat) (g : gshared) : gshared := fold_left sstep sched g.
  Definition sinit (n : nat) (fn0 : option F) (w : W) : gshared := mkShared (repeat GStart n) fn0 w.
  (** for statements: the i-th transform the generator makes, started with its variables at [w] *)
  Definition made (w : W) (i : nat) : F := fst (gen (Nat.iter i (fun w => snd (gen w)) w)).
End Shared.
Arguments gpc F : clear implicits.
Arguments gshared W F : clear implicits.
