(** Model of the storage of *big.Int and *big.Rat values and of the conversions of package conv that hand on storage: the copy
    of a big number by To and ToBigOps, and BigRatToBigInt.  A big.Int is a sign and a slice of words, as in package math/big;
    a big.Rat is made of two of them. *)
From Coq Require Import ZArith List QArith.
From Verif Require Import Base SliceMem.
Close Scope Q_scope.
Open Scope Z_scope.

Notation addr := nat.
#[global] Instance zero_word : Zero Z := 0.
(** an object of type big.Int: math/big's  struct { neg bool; abs nat } *)
Record bint : Set := mkInt { i_neg : bool; i_abs : slice }.
(** the objects of type big.Int (the two parts of a big.Rat among them) and the arrays of words *)
Record world := World { w_ints : list bint; w_mem : @mem Z }.
(** a big.Rat at some address: the addresses of its numerator and denominator *)
Record brat : Set := mkRat { r_num : addr; r_den : addr }.

Definition set_int (W : world) (a : addr) (x : bint) : world := World (firstn a (w_ints W) ++ x :: skipn (S a) (w_ints W)) (w_mem W).
(** new(big.Int) *)
Definition new_int (W : world) : addr * world := (length (w_ints W), World (w_ints W ++ [mkInt false None]) (w_mem W)).

(** conv/conv.go:1034-1049, To, and 1132-1146, ToBigOps, when both types are *big.Int: [i] is the input pointer, [o] the pointer
    the output variable holds; the result is the pointer it holds afterwards.  The last statement copies the struct. *)
Definition to_same (W : world) (i o : option addr) : outcome (option addr * world) :=
  match i with
  | None => Done (None, W)
  | Some ia =>
      let '(oa, W) := match o with
                      | None => new_int W
                      | Some a => if Nat.eqb a ia then new_int W else (a, W)
                      end in
      match nth_error (w_ints W) ia with
      | Some x => Done (Some oa, set_int W oa x)
      | None => Panicked
      end
  end.

(** the words of a number with low words first: 64 bits each *)
Definition words_value (ws : list Z) : Z := fold_right (fun w acc => w + 2 ^ 64 * acc) 0 ws.
Definition nat_value (m : @mem Z) (s : slice) : Z := words_value (contents m s).

(** conv/bigint.go:80-87, BigRatToBigInt with the old output [o]: the error and the pointer.  big.Rat.IsInt: the denominator has
    no words or is 1; big.Rat.Num is a pointer to the numerator inside the big.Rat. *)
Definition rat_err : err := UserErr 2.
Definition rat_to_int (W : world) (r : brat) (o : option addr) : outcome (option err * option addr) :=
  match nth_error (w_ints W) (r_den r) with
  | Some d => if (slen (i_abs d) =? 0)%nat || (nat_value (w_mem W) (i_abs d) =? 1) then Done (None, Some (r_num r)) else Done (Some rat_err, o)
  | None => Panicked
  end.

(** math/big: nat.setWord, and with it nat.setUint64 on a 64-bit machine *)
Definition set_word (m : @mem Z) (z : slice) (x : Z) : @mem Z * slice :=
  if x =? 0 then (m, match z with Some h => Some (Hdr (arr h) (off h) 0 (cap h)) | None => None end)
  else match z with
       | Some h => if (1 <=? cap h)%nat then (upd m (arr h) (write_at (array m (arr h)) (off h) [x]), Some (Hdr (arr h) (off h) 1 (cap h)))
                   else let '(m', s) := smake m 1 1 in
                        match s with Some h' => (upd m' (arr h') (write_at (array m' (arr h')) 0 [x]), s) | None => (m', s) end
       | None => let '(m', s) := smake m 1 1 in
                 match s with Some h' => (upd m' (arr h') (write_at (array m' (arr h')) 0 [x]), s) | None => (m', s) end
       end.
(** math/big: Int.SetInt64 *)
Definition set_int64 (W : world) (a : addr) (v : Z) : outcome world :=
  match nth_error (w_ints W) a with
  | Some x => let '(m, s) := set_word (w_mem W) (i_abs x) (Z.abs v) in
              Done (set_int (World (w_ints W) m) a (mkInt (v <? 0) s))
  | None => Panicked
  end.
