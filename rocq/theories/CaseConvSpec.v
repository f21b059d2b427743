(** Specification vocabulary for C85: names made of words. *)
From Coq Require Import ZArith List Bool.
Import ListNotations.
Open Scope Z_scope.

Definition small (c : Z) : Prop := 97 <= c <= 122.
Definition capital (c : Z) : Prop := 65 <= c <= 90.
(** the words with an underscore between any two *)
Fixpoint joined (ws : list (list Z)) : list Z :=
  match ws with
  | [] => []
  | [w] => w
  | w :: ws' => w ++ 95 :: joined ws'
  end.
(** [v] is [w] with a small first letter replaced by the capital one *)
Inductive capitalised : list Z -> list Z -> Prop :=
| cap_small c r : small c -> capitalised (c :: r) (c - 32 :: r)
| cap_other c r : ~ small c -> capitalised (c :: r) (c :: r).
(** a word of snake case, a word of camel case *)
Definition snake_word (w : list Z) : Prop := w <> [] /\ Forall small w.
Definition camel_word (w : list Z) : Prop := exists c r, w = c :: r /\ capital c /\ Forall small r.
