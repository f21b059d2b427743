(** What a pointer to a big number holds, said without reference to the model's functions: only to its memory. *)
From Coq Require Import ZArith List QArith.
From Verif Require Import Base SliceMem Conv Float ConvFloat ConvFloatSpec BigMem.
Close Scope Q_scope.
Open Scope Z_scope.

Definition word (w : Z) : Prop := 0 <= w < base.
(** The slice holds the words of [n], without leading zeros. *)
Definition is_nat (m : mem Z) (s : slice) (n : Z) : Prop :=
  valid m s /\ Forall word (contents m s) /\ nat_of (contents m s) = n /\ last (contents m s) 1 <> 0.
Definition is_int (m : mem Z) (b : bint) (z : Z) : Prop := is_nat m (iabs b) (Z.abs z) /\ ineg b = (z <? 0).
(** A denominator of one may be left out. *)
Definition is_rat (m : mem Z) (r : brat) (q : Q) : Prop :=
  is_int m (rnum r) (Qnum q) /\ ineg (rden r) = false /\ Qred q = q /\
  (is_nat m (iabs (rden r)) (Zpos (Qden q)) \/ is_nat m (iabs (rden r)) 0 /\ Qden q = 1%positive).
Definition is_flt (m : mem Z) (f : bflt) (x : float) : Prop :=
  match x with
  | Fin neg mant e => fsign f = neg /\ 
      (fform f = FZero /\ mant = 0 /\ fexp f = e \/ fform f = FFinite /\ mant <> 0 /\ is_nat m (fmant f) mant /\ fexp f = e)
  | Inf neg => fform f = FInf /\ fsign f = neg
  | NaN => False
  end.

(** In this memory the pointer points to this number. *)
Definition int_is (h : heap) (p : iptr) (z : Z) : Prop :=
  exists b, (match p with PInt n => nth_error (ints h) n | PNum n => option_map rnum (nth_error (rats h) n) end) = Some b /\ is_int (words h) b z.
Definition rat_is (h : heap) (p : nat) (q : Q) : Prop := exists r, nth_error (rats h) p = Some r /\ is_rat (words h) r q.
Definition flt_is (h : heap) (p : nat) (x : float) : Prop := exists f, nth_error (flts h) p = Some f /\ is_flt (words h) f x.

Definition allocated (h : heap) (p : iptr) : Prop := match p with PInt n => (n < length (ints h))%nat | PNum n => (n < length (rats h))%nat end.
(** Every number there was is still the same. *)
Definition unchanged (h h' : heap) : Prop :=
  (forall p z, int_is h p z -> int_is h' p z) /\ (forall p q, rat_is h p q -> rat_is h' p q) /\ (forall p x, flt_is h p x -> flt_is h' p x).
(** Every object and every array there was is as it was; there may be new ones. *)
Definition only_new (h h' : heap) : Prop :=
  exists x i r f, words h' = words h ++ x /\ ints h' = ints h ++ i /\ rats h' = rats h ++ r /\ flts h' = flts h ++ f.
(** Only the big.Int at [p] (with the big.Rat of which it is the numerator) may be different. *)
Definition unchanged_but (p : iptr) (h h' : heap) : Prop :=
  (forall p' z, p' <> p -> int_is h p' z -> int_is h' p' z) /\
  (forall r q, p <> PNum r -> rat_is h r q -> rat_is h' r q) /\ (forall f x, flt_is h f x -> flt_is h' f x).

(** The same for a big.Rat (with its numerator) and a big.Float. *)
Definition unchanged_but_rat (r : nat) (h h' : heap) : Prop :=
  (forall p z, p <> PNum r -> int_is h p z -> int_is h' p z) /\
  (forall r' q, r' <> r -> rat_is h r' q -> rat_is h' r' q) /\ (forall f x, flt_is h f x -> flt_is h' f x).
Definition unchanged_but_flt (f : nat) (h h' : heap) : Prop :=
  (forall p z, int_is h p z -> int_is h' p z) /\ (forall r q, rat_is h r q -> rat_is h' r q) /\
  (forall f' x, f' <> f -> flt_is h f' x -> flt_is h' f' x).

(** Two pointers to integers whose words are the same memory. *)
Definition abs_of (h : heap) (p : iptr) : option slice :=
  option_map iabs (match p with PInt n => nth_error (ints h) n | PNum n => option_map rnum (nth_error (rats h) n) end).
Definition same_words (h : heap) (p q : iptr) : Prop := exists s, abs_of h p = Some s /\ abs_of h q = Some s.

(** [z] with its lowest word replaced by [w]; the sign stays. *)
Definition low_word_replaced (z w : Z) : Z := Z.sgn z * (Z.abs z - Z.abs z mod 2 ^ 64 + w).

(** A value of the sixteen types in memory: for a pointer to a big number the number it points to. *)
Definition holds (h : heap) (v : hval) (g : gval) : Prop :=
  match v, g with
  | HInt (Some p), VBigInt z => int_is h p z
  | HRat (Some p), VBigRat q => rat_is h p q
  | HFlt (Some p), VBigFloat x => flt_is h p x
  | HPlain v, g => v = g /\ match g with VBigInt _ | VBigRat _ | VBigFloat _ | VUnspec => False | _ => True end
  | _, _ => False
  end.
(** An output variable of type [t]: any pointer to an object, or nil; any value of the type. *)
Definition variable_of (h : heap) (t : gtype) (o : hval) : Prop :=
  match t, o with
  | TBigInt, HInt (Some p) => allocated h p
  | TBigRat, HRat (Some p) => (p < length (rats h))%nat
  | TBigFloat, HFlt (Some p) => (p < length (flts h))%nat
  | TBigInt, HInt None | TBigRat, HRat None | TBigFloat, HFlt None => True
  | (TI _ | TF _ | TString), HPlain x => ConvFloatSpec.well_typed t x
  | _, _ => False
  end.
(** The object was not there in [h], and its words are in arrays that were not there. *)
Definition new_array (m : mem Z) (s : slice) : Prop := match s with None => True | Some d => (length m <= arr d)%nat end.
Definition brand_new (h h' : heap) (v : hval) : Prop :=
  match v with
  | HInt (Some p) => ~ allocated h p /\ forall s, abs_of h' p = Some s -> new_array (words h) s
  | HRat (Some p) => (length (rats h) <= p)%nat /\ forall r, nth_error (rats h') p = Some r -> new_array (words h) (iabs (rnum r)) /\ new_array (words h) (iabs (rden r))
  | HFlt (Some p) => (length (flts h) <= p)%nat /\ forall f, nth_error (flts h') p = Some f -> new_array (words h) (fmant f)
  | HPlain _ => True
  | _ => False
  end.
