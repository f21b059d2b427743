(** Specification of Send when receivers use the registry (C93). *)
From Verif Require Import Base SliceMem FuncsFn FuncsOrd FuncsOrdSpec EventRe.
Open Scope nat_scope.

(** the receivers of a registry, in the order Send calls them *)
Definition present {I R} (r : registry I R) : list R := flat_map snd (contents (rmem r) (receivers r)).
(** the receiver of a call *)
Definition callee {R T} (c : R * T * T) : R := fst (fst c).

(** each call is given what the one before returned *)
Inductive chained {R T} : T -> list (R * T * T) -> T -> Prop :=
| ch_nil t : chained t [] t
| ch_cons r t t' cs t'' : chained t' cs t'' -> chained t ((r, t, t') :: cs) t''.

(** [l'] is [l], in the same order, with some members that satisfy [P] put in and some that satisfy [Q] left out *)
Inductive differs {R} (P Q : R -> Prop) : list R -> list R -> Prop :=
| df_nil : differs P Q [] []
| df_keep x l l' : differs P Q l l' -> differs P Q (x :: l) (x :: l')
| df_in x l l' : P x -> differs P Q l l' -> differs P Q l (x :: l')
| df_out x l l' : Q x -> differs P Q l l' -> differs P Q (x :: l) l'.

(** what a receiver does: it never calls RemoveId, registers only receivers in [P] and calls Remove only for receivers in [Q] *)
Fixpoint uses {I R T W} (P Q : R -> Prop) (p : prog I R T W) : Prop :=
  match p with
  | PRet _ _ => True
  | POp op p' => match op with OAdd _ v => P v | ORemoveValue _ v _ => Q v | ORemoveKey _ => False end /\ uses P Q p'
  | PSend _ _ k => forall t w, uses P Q (k t w)
  end.
(** it does not call Send *)
Fixpoint no_send {I R T W} (p : prog I R T W) : Prop :=
  match p with PRet _ _ => True | POp _ p' => no_send p' | PSend _ _ _ => False end.
(** Remove does not tell receivers apart that have the same address *)
Definition same_addr {R} (addr : R -> Z) (Q : R -> Prop) (r : R) : Prop := exists v, Q v /\ addr v = addr r.
