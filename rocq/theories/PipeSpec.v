(** What a pipeline is meant to do: a list transformation, and how much of the source it needs. *)
From Verif Require Import Base GoMap Iter IterSpec Stream StreamSpec Pipe.

(** What is known of an iterator: the values [fst tr] it returns first and, if [snd tr = Some e], that it returns the
    error [e] after them.  [None]: nothing is known about what comes after (it may go on for ever). *)
Notation trace T := (list T * option err)%type.

(** The first [n] calls of [f] in state [s] return the first [n] results of the trace and lead to [s']. *)
Inductive pulls {S T} (f : stepfn S T) : S -> trace T -> nat -> S -> Prop :=
| pulls_0 s tr : pulls f s tr 0 s
| pulls_value s v s1 l o n s2 :
    returns f s (v, None) s1 -> pulls f s1 (l, o) n s2 -> pulls f s (v :: l, o) (Datatypes.S n) s2
| pulls_error s e s1 : fails f s e s1 -> pulls f s ([], Some e) 1 s1.

(** The trace says what the first [n] calls return. *)
Definition covers {T} (tr : trace T) (n : nat) : Prop :=
  n <= length (fst tr) \/ n = Datatypes.S (length (fst tr)) /\ snd tr <> None.

(** [f] in state [s] behaves as the trace says. *)
Definition gives {S T} (f : stepfn S T) (s : S) (tr : trace T) : Prop :=
  exists s', emits f s (fst tr) s' /\ forall e, snd tr = Some e -> exists s'', fails f s' e s''.

(** Results up to the first error among them. *)
Fixpoint cut_errors {T} (rs : list (ret T)) (o : option err) : trace T :=
  match rs with
  | [] => ([], o)
  | (v, None) :: rs' => (v :: fst (cut_errors rs' o), snd (cut_errors rs' o))
  | (_, Some e) :: _ => ([], Some e)
  end.

(** A reduction: one value once the source has ended normally, its error if it failed. *)
Definition reduced {T} (o : option err) (result : list T) : trace T :=
  match o with
  | Some EOI => (result, Some EOI)
  | Some e => ([], Some e)
  | None => ([], None)
  end.

(** The meaning of one stage, on traces. *)
Definition stage_meaning {A B} (g : stage A B) : trace A -> trace B :=
  match g in stage A0 B0 return trace A0 -> trace B0 with
  | SMap _ f c0 => fun tr => (fst (map_acc f c0 (fst tr)), snd tr)
  | SMapError _ f c0 => fun tr => cut_errors (fst (map_acc f c0 (fst tr))) (snd tr)
  | SFilter _ p c0 => fun tr => (fst (filter_acc p c0 (fst tr)), snd tr)
  | SPeek _ _ _ => fun tr => tr
  | SSkip _ n => fun tr => (skipn n (fst tr), snd tr)
  | SLimit _ n => fun tr => if n <=? length (fst tr) then (firstn n (fst tr), Some EOI) else tr
  | SReduceTo zb f ids => fun tr => reduced (snd tr)
      match ids, fst tr with
      | [], [] => []
      | [], l => [fold_left f l (@zv _ zb)]
      | id :: _, l => [fold_left f l id]
      end
  | SReduce _ f ids => fun tr => reduced (snd tr)
      match ids, fst tr with
      | [], [] => []
      | [], x :: l => [fold_left f l x]
      | id :: _, l => [fold_left f l id]
      end
  | SReduceBool p identity stop => fun tr =>
      if existsb (fun x => Bool.eqb (p x) stop) (fst tr) then ([stop], Some EOI)
      else reduced (snd tr) [match fst tr with [] => identity | _ => negb stop end]
  | SToSlice => fun tr => reduced (snd tr) [fst tr]
  | SExpand _ => fun tr => (concat (fst tr), snd tr)
  | SToMap _ _ eqb => fun tr => reduced (snd tr) [fold_left (fun m kv => mset eqb m (fst kv) (snd kv)) (fst tr) []]
  | SExpandMaps _ _ => fun tr => (concat (fst tr), snd tr)
  end.

(** How many calls on the source it takes until [k] more values have passed the filter, or the source has ended. *)
Fixpoint filter_demand {A C} (p : C -> A -> bool * C) (c : C) (l : list A) (k : nat) : nat :=
  match k, l with
  | 0, _ => 0
  | _, [] => 1
  | Datatypes.S k', x :: l' =>
      Datatypes.S (filter_demand p (snd (p c x)) l' (if fst (p c x) then k' else k))
  end.

(** ... until a value decides the answer, or the source has ended. *)
Fixpoint first_demand {A} (hit : A -> bool) (l : list A) : nat :=
  match l with
  | [] => 1
  | x :: l' => if hit x then 1 else Datatypes.S (first_demand hit l')
  end.

(** ... until [k] more values have been found in the slices, or the source has ended. *)
Fixpoint expand_demand {A} (l : list (list A)) (k : nat) : nat :=
  match k, l with
  | 0, _ => 0
  | _, [] => 1
  | _, x :: l' => if k <=? length x then 1 else Datatypes.S (expand_demand l' (k - length x))
  end.

(** How many calls a stage makes on its source to answer its own first [k] calls. *)
Definition stage_demand {A B} (g : stage A B) : trace A -> nat -> nat :=
  match g in stage A0 B0 return trace A0 -> nat -> nat with
  | SMap _ _ _ => fun _ k => k
  | SMapError _ _ _ => fun _ k => k
  | SFilter _ p c0 => fun tr k => filter_demand p c0 (fst tr) k
  | SPeek _ _ _ => fun _ k => k
  | SSkip _ n => fun tr k => match k with 0 => 0 | _ => Nat.min (n + k) (Datatypes.S (length (fst tr))) end
  | SLimit _ n => fun _ k => Nat.min k n
  | SReduceTo _ _ _ => fun tr k => match k with 0 => 0 | _ => Datatypes.S (length (fst tr)) end
  | SReduce _ _ _ => fun tr k => match k with 0 => 0 | _ => Datatypes.S (length (fst tr)) end
  | SReduceBool p _ stop => fun tr k =>
      match k with 0 => 0 | _ => first_demand (fun x => Bool.eqb (p x) stop) (fst tr) end
  | SToSlice => fun tr k => match k with 0 => 0 | _ => Datatypes.S (length (fst tr)) end
  | SExpand _ => fun tr k => expand_demand (fst tr) k
  | SToMap _ _ _ => fun tr k => match k with 0 => 0 | _ => Datatypes.S (length (fst tr)) end
  | SExpandMaps _ _ => fun tr k => expand_demand (fst tr) k
  end.

(** The same for a pipeline: composition. *)
Fixpoint meaning {A B} (p : pipe A B) : trace A -> trace B :=
  match p in pipe A0 B0 return trace A0 -> trace B0 with
  | PEnd => fun tr => tr
  | PThen g p' => fun tr => meaning p' (stage_meaning g tr)
  end.

Fixpoint demand {A B} (p : pipe A B) : trace A -> nat -> nat :=
  match p in pipe A0 B0 return trace A0 -> nat -> nat with
  | PEnd => fun _ k => k
  | PThen g p' => fun tr k => stage_demand g tr (demand p' (stage_meaning g tr) k)
  end.

(** The zero value of the result type of a pipeline whose source has the zero value [za]. *)
Fixpoint pipe_zero {A B} (p : pipe A B) : Zero A -> Zero B :=
  match p in pipe A0 B0 return Zero A0 -> Zero B0 with
  | PEnd => fun za => za
  | PThen g p' => fun _ => pipe_zero p' (stage_zero g)
  end.
