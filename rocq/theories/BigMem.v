(** Big numbers as they lie in memory.  A big.Int is a sign and a slice of words (math/big's nat), a big.Rat two of them, a big.Float
    some fields and a slice of words.  conv.To copies such a structure, so that two numbers have the same words; BigRatToBigInt returns
    a pointer into its argument.
    Modelled of package math/big (not part of /repo; nat.make, nat.set, nat.setWord, Int.Set, Int.SetInt64 as in Go 1.18): a method
    that stores a result keeps the array of the receiver when its capacity suffices.
    Simplifications: no pointer to the denominator of a big.Rat is taken (the code takes none); of a big.Float the exponent is that of
    the lowest bit of the mantissa, and a mantissa made by a conversion is not shifted to the left; arrays made by a conversion have no spare capacity (nat.make
    leaves 4 words for lengths above 1). *)
From Coq Require Import ZArith List QArith.
From Verif Require Import Base SliceMem Conv Float ConvFloat.
Close Scope Q_scope.
Open Scope Z_scope.
Open Scope go_scope.

(** big.Word, little endian *)
Definition base : Z := 2 ^ 64.
Fixpoint nat_of (ws : list Z) : Z := match ws with [] => 0 | w :: r => w + base * nat_of r end.
Fixpoint words_fuel (n : nat) (z : Z) : list Z :=
  match n with O => [] | S n => if z =? 0 then [] else z mod base :: words_fuel n (z / base) end.
Definition words_of (z : Z) : list Z := words_fuel (S (Z.to_nat (Z.log2 z))) z.

Record bint : Set := BI { ineg : bool; iabs : slice }.
Record brat : Set := BR { rnum : bint; rden : bint }.
Inductive form : Set := FZero | FFinite | FInf.
Record bflt : Set := BF { fform : form; fsign : bool; fmant : slice; fexp : Z }.
Record heap : Type := mkHeap { words : mem Z; ints : list bint; rats : list brat; flts : list bflt }.

(** A pointer to a big.Int: to an object of its own or to the numerator of a big.Rat. *)
Inductive iptr : Set := PInt (n : nat) | PNum (n : nat).
Definition iptr_eqb (p q : iptr) : bool :=
  match p, q with PInt a, PInt b => Nat.eqb a b | PNum a, PNum b => Nat.eqb a b | _, _ => false end.
Definition set_at {V} (l : list V) (a : nat) (v : V) : list V := firstn a l ++ v :: skipn (S a) l.

Definition load_int (h : heap) (p : iptr) : option bint :=
  match p with PInt n => nth_error (ints h) n | PNum n => option_map rnum (nth_error (rats h) n) end.
Definition store_int (h : heap) (p : iptr) (b : bint) : heap :=
  match p with
  | PInt n => mkHeap (words h) (set_at (ints h) n b) (rats h) (flts h)
  | PNum n => match nth_error (rats h) n with
              | Some r => mkHeap (words h) (ints h) (set_at (rats h) n (BR b (rden r))) (flts h)
              | None => h
              end
  end.
Definition load_rat (h : heap) (p : nat) : option brat := nth_error (rats h) p.
Definition store_rat (h : heap) (p : nat) (r : brat) : heap := mkHeap (words h) (ints h) (set_at (rats h) p r) (flts h).
Definition load_flt (h : heap) (p : nat) : option bflt := nth_error (flts h) p.
Definition store_flt (h : heap) (p : nat) (f : bflt) : heap := mkHeap (words h) (ints h) (rats h) (set_at (flts h) p f).
(** new(big.Int), new(big.Rat), new(big.Float) *)
Definition zero_int : bint := BI false None.
Definition alloc_int (h : heap) : heap * iptr := (mkHeap (words h) (ints h ++ [zero_int]) (rats h) (flts h), PInt (length (ints h))).
Definition alloc_rat (h : heap) : heap * nat := (mkHeap (words h) (ints h) (rats h ++ [BR zero_int zero_int]) (flts h), length (rats h)).
Definition alloc_flt (h : heap) : heap * nat := (mkHeap (words h) (ints h) (rats h) (flts h ++ [BF FZero false None 0]), length (flts h)).

(** conv/conv.go:1033-1049, To when both types are the same big type: nil for nil; otherwise the structure is copied, into the object
    the output variable points to, or into a new one if that is nil or is the input itself.  [o] is the value of the output variable,
    and the result is its new value. *)
Section Same.
  Context {P V : Type} (eqb : P -> P -> bool) (load : heap -> P -> option V) (store : heap -> P -> V -> heap) (alloc : heap -> heap * P).
  Definition to_same (h : heap) (i o : option P) : outcome (heap * option P) :=
    match i with
    | None => Done (h, None)
    | Some p =>
        match load h p with
        | None => Panicked
        | Some v =>
            let '(h, q) := match o with Some q => if eqb p q then alloc h else (h, q) | None => alloc h end in
            Done (store h q v, Some q)
        end
    end.
End Same.
Definition to_int_int := to_same iptr_eqb load_int store_int alloc_int.
Definition to_rat_rat := to_same Nat.eqb load_rat store_rat alloc_rat.
Definition to_flt_flt := to_same Nat.eqb load_flt store_flt alloc_flt.

(** Calling To for one number after the other with the same output variable, and keeping the pointers it gets (not code of /repo). *)
Fixpoint to_each (h : heap) (is : list (option iptr)) (o : option iptr) : outcome (heap * list (option iptr)) :=
  match is with
  | [] => Done (h, [])
  | i :: is' => let! (h1, o1) := to_int_int h i o in let! (h2, os) := to_each h1 is' o1 in Done (h2, o1 :: os)
  end.

(** big.Rat.IsInt *)
Definition rat_is_int (h : heap) (r : brat) : bool := match contents (words h) (iabs (rden r)) with [] => true | [w] => w =? 1 | _ => false end.
(** conv/bigint.go:79-86, BigRatToBigInt: the numerator itself; [o] is the value of the output variable *)
Definition rat_to_int (h : heap) (r : nat) (o : option iptr) : outcome (option err * option iptr) :=
  match load_rat h r with
  | None => Panicked
  | Some v => if negb (rat_is_int h v) then Done (Some conv_err, o) else Done (None, Some (PNum r))
  end.

(** ** Of package math/big *)
(** nat.make(n) for n = 1, then the word is stored: nat.setWord of a word that is not zero *)
Definition set_word (m : mem Z) (z : slice) (w : Z) : mem Z * slice :=
  if w =? 0 then (m, match z with None => None | Some d => Some (Hdr (arr d) (off d) 0 (cap d)) end) else
  match z with
  | Some d => if (1 <=? cap d)%nat then (upd m (arr d) (write_at (array m (arr d)) (off d) [w]), Some (Hdr (arr d) (off d) 1 (cap d)))
              else (m ++ [[w]], Some (Hdr (length m) 0 1 1))
  | None => (m ++ [[w]], Some (Hdr (length m) 0 1 1))
  end.
(** z.SetInt64(v) *)
Definition set_int64 (h : heap) (z : iptr) (v : Z) : outcome heap :=
  match load_int h z with
  | None => Panicked
  | Some b => let (m, s) := set_word (words h) (iabs b) (Z.abs v) in
              Done (store_int (mkHeap m (ints h) (rats h) (flts h)) z (BI (v <? 0) s))
  end.
(** new(big.Int).Set(x): nat.set copies the words into an array of the receiver's *)
Definition new_set (h : heap) (x : iptr) : outcome (heap * iptr) :=
  match load_int h x with
  | None => Panicked
  | Some b => let l := contents (words h) (iabs b) in
              let s := match l with [] => None | _ => Some (Hdr (length (words h)) 0 (length l) (length l)) end in
              let m := match l with [] => words h | _ => words h ++ [l] end in
              Done (mkHeap m (ints h ++ [BI (ineg b) s]) (rats h) (flts h), PInt (length (ints h)))
  end.

(** ** The other conversions to big numbers *)
(** new words *)
Definition new_words (m : mem Z) (z : Z) : mem Z * slice :=
  let l := words_of z in (m ++ [l], Some (Hdr (length m) 0 (length l) (length l))).
Definition new_int (h : heap) (z : Z) : heap * iptr :=
  let (m, s) := new_words (words h) (Z.abs z) in
  (mkHeap m (ints h ++ [BI (z <? 0) s]) (rats h) (flts h), PInt (length (ints h))).
Definition new_rat (h : heap) (q : Q) : heap * nat :=
  let (m, s) := new_words (words h) (Z.abs (Qnum q)) in
  let (m, d) := new_words m (Zpos (Qden q)) in
  (mkHeap m (ints h) (rats h ++ [BR (BI (Qnum q <? 0) s) (BI false d)]) (flts h), length (rats h)).
Definition new_flt (h : heap) (x : float) : heap * nat :=
  match x with
  | Fin neg m e => let (w, s) := new_words (words h) m in
                   (mkHeap w (ints h) (rats h) (flts h ++ [BF (if m =? 0 then FZero else FFinite) neg s e]), length (flts h))
  | Inf neg => (mkHeap (words h) (ints h) (rats h) (flts h ++ [BF FInf neg None 0]), length (flts h))
  | NaN => (mkHeap (words h) (ints h) (rats h) (flts h ++ [BF FZero false None 0]), length (flts h))
  end.

(** A value of one of the sixteen types: big numbers are pointers, nil or not; the others have no memory. *)
Inductive hval : Type := HInt (p : option iptr) | HFlt (p : option nat) | HRat (p : option nat) | HPlain (v : gval).

(** what a pointer points to *)
Definition sgn_of (neg : bool) (z : Z) : Z := if neg then - z else z.
Definition int_at (h : heap) (b : bint) : Z := sgn_of (ineg b) (nat_of (contents (words h) (iabs b))).
Definition rat_at (h : heap) (r : brat) : Q :=
  match contents (words h) (iabs (rden r)) with [] => inject_Z (int_at h (rnum r)) | l => Qmake (int_at h (rnum r)) (Z.to_pos (nat_of l)) end.
Definition flt_at (h : heap) (f : bflt) : float :=
  match fform f with FZero => Fin (fsign f) 0 (fexp f) | FFinite => Fin (fsign f) (nat_of (contents (words h) (fmant f))) (fexp f) | FInf => Inf (fsign f) end.
Definition read (h : heap) (v : hval) : outcome gval :=
  match v with
  | HInt (Some p) => match load_int h p with Some b => Done (VBigInt (int_at h b)) | None => Panicked end
  | HFlt (Some p) => match load_flt h p with Some f => Done (VBigFloat (flt_at h f)) | None => Panicked end
  | HRat (Some p) => match load_rat h p with Some r => Done (VBigRat (rat_at h r)) | None => Panicked end
  | HPlain g => Done g
  | _ => Done VUnspec
  end.

Section To.
  Variable oor : ikind -> float -> Z.
  Variable parse_literal : list Z -> option literal.
  Variable format_float : fsize -> float -> list Z.
  Variable format_bigfloat : float -> list Z.
  Variable parse_rat : list Z -> option Q.
  (** conv/conv.go:1018-1061, To, and the entries of convertFromTo (30-1006): [o] is the value of the output variable; the result is an
      error, its new value and the memory.  The number an entry computes is that of ConvFloat.v; here it is said where it is put.
      FloatToBigInt and BigFloatToBigInt (conv/bigint.go:40-70) return the numerator of a big.Rat they have just made; StringToBigInt
      (95-102) leaves a new big.Int behind when it fails (its number is undefined; the model has 0), StringToBigFloat and StringToBigRat
      nil.  Simplification: nil inputs of a type other than the output's are not modelled (a panic here). *)
  Definition to_other (h : heap) (s t : gtype) (i o : hval) : outcome (option err * hval * heap) :=
    let! v := read h i in
    let! w := read h o in
    let! (e, g) := to oor parse_literal format_float format_bigfloat parse_rat s t v w in
    match g, e with
    | VBigInt z, None =>
        match s with
        | TF _ | TBigFloat => let (h', r) := new_rat h (inject_Z z) in Done (e, HInt (Some (PNum r)), h')
        | _ => let (h', p) := new_int h z in Done (e, HInt (Some p), h')
        end
    | VBigFloat x, None => let (h', p) := new_flt h x in Done (e, HFlt (Some p), h')
    | VBigRat q, None => let (h', p) := new_rat h q in Done (e, HRat (Some p), h')
    | VUnspec, Some _ => match t, s with
                         | TBigInt, TString => let (h', p) := new_int h 0 in Done (e, HInt (Some p), h')
                         | TBigFloat, TString => Done (e, HFlt None, h)
                         | TBigRat, TString => Done (e, HRat None, h)
                         | _, _ => Done (e, o, h)
                         end
    | _, _ => match o with HPlain _ => Done (e, HPlain g, h) | _ => Done (e, o, h) end
    end.
  Definition to_mem (h : heap) (s t : gtype) (i o : hval) : outcome (option err * hval * heap) :=
    match s, t, i, o with
    | TBigInt, TBigInt, HInt p, HInt q => let! (h', r) := to_int_int h p q in Done (None, HInt r, h')
    | TBigRat, TBigRat, HRat p, HRat q => let! (h', r) := to_rat_rat h p q in Done (None, HRat r, h')
    | TBigFloat, TBigFloat, HFlt p, HFlt q => let! (h', r) := to_flt_flt h p q in Done (None, HFlt r, h')
    | TBigRat, TBigInt, HRat (Some p), HInt q => let! (e, r) := rat_to_int h p q in Done (e, HInt r, h)
    | _, _, _, _ => to_other h s t i o
    end.
End To.
