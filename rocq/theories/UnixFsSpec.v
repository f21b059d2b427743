(** Vocabulary of C104 for directories that are replaced: what an unprivileged process can remove.  No code is modelled here. *)
From Coq Require Import ZArith List.
From Verif Require Import Path PathSpec UnixFs.
Import ListNotations.

(** No directory has two entries of the same name. *)
Definition proper (t : node) : Prop := forall l r w x es, node_at t l = Some (Dir r w x es) -> NoDup (map fst es).
(** What is at [l], at or below [top], can be removed once it is empty: the directory it is in can be written and searched, and from
    [top] down to there every directory can be listed and is in one that can be searched. *)
Definition removable (t : node) (top l : place) : Prop :=
  (exists r, thing_at t (tl l) = Some (ADir r true true)) /\
  forall m, within top m -> within m (tl l) -> (exists w x, thing_at t m = Some (ADir true w x)) /\ exists r w, thing_at t (tl m) = Some (ADir r w true).
(** Something at [l] or below cannot be removed. *)
Definition kept (t : node) (top l : place) : Prop := exists l', within l l' /\ thing_at t l' <> None /\ ~ removable t top l'.
