(** What a pipeline with eager stages is meant to do. *)
From Coq Require Import Sorting.
From Verif Require Import Base Iter IterSpec Stream StreamSpec Pipe PipeSpec Parallel ParallelSpec EagerPipe.

(** Applying the pipeline to the iterator ends, and [it'] is the result. *)
Definition builds {S0 A B} (p : epipe A B) (it : iterator S0 A) (it' : iterator S0 B) : Prop :=
  exists n, forall m, n <= m -> apply_epipe p m it = Done it'.

(** All values, rearranged, of a source that ends with EOI; nothing but the error of one that fails; no answer for a source
    of which no end is known. *)
Definition rearranged {A} (h : list A -> list A) (tr : trace A) : option (trace A) :=
  match snd tr with
  | Some EOI => Some (h (fst tr), Some EOI)
  | Some e => Some ([], Some e)
  | None => None
  end.

(** The values of the iterator Parallel returns, by what its workers did. *)
Definition ran {A B} (t : pipe A B) (x : par_result A B) : trace B :=
  match x with
  | PError e => ([], Some e)
  | PEmpty => ([], Some EOI)
  | POne x => meaning t ([x], Some EOI)
  | PSlice out => (out, Some EOI)
  end.
Definition ran_on {A B} (t : pipe A B) (run : list A -> par_result A B) (tr : trace A) : option (trace B) :=
  match snd tr with
  | Some EOI => Some (ran t (run (fst tr)))
  | Some e => Some ([], Some e)
  | None => None
  end.

Definition estage_meaning {A B} (g : estage A B) : trace A -> option (trace B) :=
  match g in estage A0 B0 return trace A0 -> option (trace B0) with
  | Lazy g => fun tr => Some (stage_meaning g tr)
  | EReverse _ => rearranged (@rev _)
  | ESort _ sort => rearranged sort
  | EParallel _ t run => ran_on t run
  end.

Fixpoint emeaning {A B} (p : epipe A B) : trace A -> option (trace B) :=
  match p in epipe A0 B0 return trace A0 -> option (trace B0) with
  | EEnd => fun tr => Some tr
  | EThen g p' => fun tr => match estage_meaning g tr with Some tr' => emeaning p' tr' | None => None end
  end.

(** How many calls of its source a stage makes when it is applied and its Next is called [k] times: an eager stage makes all
    its calls when it is applied and none later. *)
Definition estage_demand {A B} (g : estage A B) : trace A -> nat -> nat :=
  match g in estage A0 B0 return trace A0 -> nat -> nat with
  | Lazy g => stage_demand g
  | EReverse _ => fun tr _ => Datatypes.S (length (fst tr))
  | ESort _ _ => fun tr _ => Datatypes.S (length (fst tr))
  | EParallel _ _ _ => fun tr _ => Datatypes.S (length (fst tr))
  end.
Fixpoint edemand {A B} (p : epipe A B) : trace A -> nat -> nat :=
  match p in epipe A0 B0 return trace A0 -> nat -> nat with
  | EEnd => fun _ k => k
  | EThen g p' => fun tr k => estage_demand g tr match estage_meaning g tr with Some tr' => edemand p' tr' k | None => 0 end
  end.

Fixpoint epipe_zero {A B} (p : epipe A B) : Zero A -> Zero B :=
  match p in epipe A0 B0 return Zero A0 -> Zero B0 with
  | EEnd => fun za => za
  | EThen g p' => fun _ => epipe_zero p' (estage_zero g)
  end.

(** One pipeline after the other. *)
Fixpoint eappend {A B C} (p : epipe A B) : epipe B C -> epipe A C :=
  match p in epipe A0 B0 return epipe B0 C -> epipe A0 C with
  | EEnd => fun q => q
  | EThen g p' => fun q => EThen g (eappend p' q)
  end.

(** A source that never returns an error: a set of states that no call leaves and in which every call that returns gives a value. *)
Definition endless {S T} (f : stepfn S T) (s : S) : Prop :=
  exists inv : S -> Prop, inv s /\ forall fuel s r s', inv s -> f fuel s = Done (r, s') -> snd r = None /\ inv s'.

(** The stages that may end before their source does. *)
Definition may_cut {A B} (g : stage A B) : bool :=
  match g with SMapError _ _ _ | SLimit _ _ | SReduceBool _ _ _ => true | _ => false end.
(** A pipeline whose first eager stage is reached only through stages that end no earlier than their source. *)
Fixpoint drains {A B} (p : epipe A B) : bool :=
  match p with
  | EEnd => false
  | EThen g p' => match g with Lazy g => negb (may_cut g) && drains p' | _ => true end
  end.

(** A strict order in which any two different values are ordered. *)
Definition total_order {A} (less : A -> A -> bool) : Prop :=
  (forall a, less a a = false) /\ (forall a b c, less a b = true -> less b c = true -> less a c = true) /\
  (forall a b, less a b = false -> less b a = false -> a = b).
