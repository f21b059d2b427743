(** What C118 says of programs built from Must calls. *)
From Coq Require Import Qabs.
From Verif Require Import Base Decimal DecimalSpec Must.
Close Scope Q_scope.
Open Scope nat_scope.

(** the functions return nil one after the other, taking the world from w to w' *)
Fixpoint all_ok {W} (steps : list (W -> W * option err)) (w w' : W) : Prop :=
  match steps with
  | [] => w = w'
  | f :: rest => snd (f w) = None /\ all_ok rest (fst (f w)) w'
  end.

(** the number an expression stands for *)
Fixpoint exact (e : dexpr) : Q :=
  match e with
  | DLit d => DecimalSpec.value d
  | DAdd a b => Qplus (exact a) (exact b)
  | DSub a b => Qminus (exact a) (exact b)
  | DMul a b => Qmult (exact a) (exact b)
  end.
(** the decimals it may need: as many as the operands of a sum, those of both for a product *)
Fixpoint decimals (e : dexpr) : nat :=
  match e with
  | DLit d => dscale d
  | DAdd a b | DSub a b => Nat.max (decimals a) (decimals b)
  | DMul a b => decimals a + decimals b
  end.
(** the subexpressions, the expression itself included *)
Fixpoint parts (e : dexpr) : list dexpr :=
  e :: match e with DLit _ => [] | DAdd a b | DSub a b | DMul a b => parts a ++ parts b end.
Definition is_lit (e : dexpr) : option decimal := match e with DLit d => Some d | _ => None end.
Definition lits_ok (P : decimal -> Prop) (e : dexpr) : Prop := forall x d, In x (parts e) -> is_lit x = Some d -> P d.
(** a magnitude that still has at most 18 digits when written with n decimals *)
Definition fits (n : nat) (q : Q) : Prop := (Qabs q <= Qmake (p10 18 - 1) (Z.to_pos (p10 n)))%Q.

(** amounts with a fixed number n of decimals, in units of the last decimal: the checked evaluation.  It goes from left
    to right and from the inside out and ends with the first result of more than 18 digits. *)
Section Money.
  Variable n : nat.
  Definition check (z : Z) : Z + err :=
    if (p10 18 - 1 <? z)%Z then inr ErrDecOverflow else if (z <? - (p10 18 - 1))%Z then inr ErrDecUnderflow else inl z.
  Definition then_check (f : Z -> Z -> Z) (x y : Z + err) : Z + err :=
    match x with inl a => match y with inl b => check (f a b) | inr e => inr e end | inr e => inr e end.
  (** literals are read at n decimals; products are not considered *)
  Fixpoint units (e : dexpr) : Z + err :=
    match e with
    | DLit d => inl (dval d * p10 (n - dscale d))%Z
    | DAdd a b => then_check Z.add (units a) (units b)
    | DSub a b => then_check Z.sub (units a) (units b)
    | DMul _ _ => inl 0%Z
    end.
  (** an amount: n decimals, made with normalized = false; zero always has scale 0 *)
  Definition amount (d : decimal) : Prop :=
    valid d /\ denorm d = true /\ (dscale d = n \/ dval d = 0%Z /\ dscale d <= n).
  Fixpoint no_product (e : dexpr) : Prop :=
    match e with DLit _ => True | DAdd a b | DSub a b => no_product a /\ no_product b | DMul _ _ => False end.
End Money.
