(** The fields of a struct type: those that x.f can select, by the Go specification. *)
From Coq Require Import ZArith List Bool.
From Verif Require Import Base Rest Fields.
Import ListNotations.
Open Scope nat_scope.

Section Types.
  Variable types : list (list field).
  (** indexes lead from a struct type through embedded fields (of struct type, or pointers to one) to a struct type *)
  Inductive reaches (t : nat) : list nat -> nat -> Prop :=
  | rch_here : reaches t [] t
  | rch_embedded path u i f v : reaches t path u -> nth_error (fields types u) i = Some f -> embedded_struct f = Some v -> reaches t (path ++ [i]) v.
  (** indexes lead to a field; it is at depth [length path] *)
  Inductive leads_to (t : nat) (name : str) : list nat -> field -> Prop :=
  | lds path u i f : reaches t path u -> nth_error (fields types u) i = Some f -> fname f = name -> leads_to t name (path ++ [i]) f.
  (** Go specification, Selectors: the field at the shallowest depth; if there is not exactly one field there with the name, the
      selector expression is illegal *)
  Definition selects (t : nat) (name : str) (path : list nat) (f : field) : Prop :=
    leads_to t name path f /\ forall path' f', leads_to t name path' f' -> length path < length path' \/ path' = path.
  (** the blank name may be used again and again, other names once in each struct *)
  Definition blank : str := [95%Z].
  Definition well_formed : Prop := forall t i j f g, nth_error (fields types t) i = Some f -> nth_error (fields types t) j = Some g ->
    fname f = fname g -> fname f <> blank -> i = j.
End Types.
