(** Specification vocabulary: slices of arguments that are kept. *)
From Verif Require Import Base Iter IterSpec SliceMem Kept.
Open Scope nat_scope.

(** The functions [fs] are those a call finds in the slice, one after the other: function i is what element i holds when the call of
    the functions before it has returned.  [call fs] is what the call does if the slice is [fs] throughout. *)
Definition as_found {T W R F : Type} (slot : W -> nat -> F) (call : list F -> T -> W -> R * W) (t : T) (w : W) (fs : list F) : Prop :=
  forall i f, nth_error fs i = Some f -> f = slot (snd (call (firstn i fs) t w)) i.

(** Iterators in a slice of length [n] one after the other, each being what is in the slice when the one before it has ended; compare
    [seq_run] of IterSpec.v. *)
Inductive found_run {H T} (slot : H -> nat -> option (stepfn H T)) (n : nat) : nat -> H -> list T -> err -> H -> Prop :=
| fr_end h : found_run slot n n h [] EOI h
| fr_nil i h l e h' : i < n -> slot h i = None -> found_run slot n (S i) h l e h' -> found_run slot n i h l e h'
| fr_iter i f h l1 h1 h2 l2 e h3 : i < n -> slot h i = Some f ->
    emits f h l1 h1 -> fails f h1 EOI h2 -> found_run slot n (S i) h2 l2 e h3 -> found_run slot n i h (l1 ++ l2) e h3
| fr_err i f h l1 h1 e h2 : i < n -> slot h i = Some f -> emits f h l1 h1 -> fails f h1 e h2 -> e <> EOI -> found_run slot n i h l1 e h2.
(** The first values only; the last iterator may have no end. *)
Inductive found_part {H T} (slot : H -> nat -> option (stepfn H T)) (n : nat) : nat -> H -> list T -> Prop :=
| fp_nil i h l : i < n -> slot h i = None -> found_part slot n (S i) h l -> found_part slot n i h l
| fp_iter i f h l1 h1 h2 l2 : i < n -> slot h i = Some f ->
    emits f h l1 h1 -> fails f h1 EOI h2 -> found_part slot n (S i) h2 l2 -> found_part slot n i h (l1 ++ l2)
| fp_some i f h l h1 : i < n -> slot h i = Some f -> emits f h l h1 -> found_part slot n i h l.

(** A history of an ErrorWriter whose output begins in array [base], the one that NewErrorWriter made: writes of slices, the list of what
    they contained when they were written, and changes of the memory by other code, anywhere (also in the slices written before) but in
    the bytes accepted so far, which lie at the start of that array. *)
Inductive writes_of (ex : nat -> nat -> nat) (count : Z) (e : err) (base : nat) : mem Z * slice -> list (list Z) -> mem Z * slice -> Prop :=
| wo_nil x : writes_of ex count e base x [] x
| wo_write m w p r x ps y : valid m p -> error_write_mem ex count e w p m = Done (r, x) -> writes_of ex count e base x ps y ->
    writes_of ex count e base (m, w) (contents m p :: ps) y
| wo_other m w m' ps y : frame (fun a i => ~ (a = base /\ i < slen w)) m m' -> writes_of ex count e base (m', w) ps y ->
    writes_of ex count e base (m, w) ps y.
