(** Specification terms for the entry points of package conv (C92). *)
From Coq Require Import ZArith List QArith Ascii String.
From Verif Require Import Base Conv Float ConvFloat ConvAny.
Close Scope Q_scope.
Open Scope Z_scope.

(** whether a text contains a character; a package name contains neither a dot nor an asterisk *)
Fixpoint has (c : ascii) (s : string) : bool := match s with EmptyString => false | String d s' => Ascii.eqb c d || has c s' end.

(** [g] is the type a value of type [t] is converted as: [t] itself, or the type [t] is declared from, if that is no pointer to a
    number of package big *)
Definition big (g : gtype) : Prop := g = TBigInt \/ g = TBigFloat \/ g = TBigRat.
Definition under (t : rtype) (g : gtype) : Prop := t = Known g \/ exists p n, t = Declared p n g /\ ~ big g.
