(** Specification vocabulary: iterators shared by pipelines. *)
From Verif Require Import Base Iter Stream Pipe PipeSpec.
Open Scope nat_scope.

(** The first [k] answers of an iterator with the given trace: its values, then its error for ever. *)
Definition answers {B} (zb : Zero B) (tr : trace B) (k : nat) : list (ret B) :=
  firstn k (map (fun v => (v, None)) (fst tr)) ++
  match snd tr with Some e => repeat (@zv _ zb, Some e) (k - length (fst tr)) | None => [] end.
(** The values of [l] that belong to [b], when [own] says to whom each belongs. *)
Fixpoint share {A} (b : bool) (own : list bool) (l : list A) : list A :=
  match own, l with
  | o :: own', x :: l' => if Bool.eqb o b then x :: share b own' l' else share b own' l'
  | _, _ => []
  end.
(** What is left of a trace after [n] calls. *)
Definition left_over {A} (n : nat) (tr : trace A) : trace A := (skipn n (fst tr), snd tr).
(** The list cut into pieces of [n]: [k] of them. *)
Fixpoint pieces {A} (n k : nat) (l : list A) : list (list A) :=
  match k with 0 => [] | S k' => firstn n l :: pieces n k' (skipn n l) end.
(** The results of the next calls of Next, made one after another with the given fuel. *)
Inductive took {S A} (nx : stepfn S A) (fuel : nat) : S -> list (ret A) -> S -> Prop :=
| took_nil s : took nx fuel s [] s
| took_cons s r s1 rs s' : nx fuel s = Done (r, s1) -> took nx fuel s1 rs s' -> took nx fuel s (r :: rs) s'.
(** How often [b] occurs. *)
Definition turns (b : bool) (who : list bool) : nat := length (filter (Bool.eqb b) who).
(** The calls of the pipelines, without the peeks. *)
Fixpoint calls (who : list (option bool)) : list bool :=
  match who with [] => [] | Some b :: who' => b :: calls who' | None :: who' => calls who' end.
