(** Specification vocabulary for C101. *)
From Coq Require Import String.
From Verif Require Import Base Rest Regex.
Open Scope Z_scope.

(** Equal but for the case of ASCII letters. *)
Definition lower (c : Z) : Z := if (65 <=? c) && (c <=? 90) then c + 32 else c.
Definition same_name (a b : str) : Prop := map lower a = map lower b.

(** [v] is the value of the first of the header lines with that name, and [] if there is none. *)
Definition first_header (name : str) (lines : list (str * str)) (v : str) : Prop :=
  (exists before n after, lines = before ++ (n, v) :: after /\ same_name n name /\ Forall (fun l => ~ same_name (fst l) name) before) \/
  v = [] /\ Forall (fun l => ~ same_name (fst l) name) lines.
