(** Specification vocabulary for Parallel. *)
From Verif Require Import Base Slice Parallel.
Open Scope nat_scope.

(** What a call of Parallel can be given: fewer than 2^53 items (more than fit in memory), and an int for N. *)
Definition pinfo_ok (n : nat) (info : pinfo) : Prop :=
  (Z.of_nat n < 2 ^ 53)%Z /\ match info with PNone => True | PThreads z | PItems z => (- 2 ^ 63 <= z < 2 ^ 63)%Z end.

(** The ranges are non-empty, contiguous and in order from [lo] to [hi]. *)
Inductive chain : nat -> list (nat * nat) -> nat -> Prop :=
| chain_nil n : chain n [] n
| chain_cons a b r c : a < b -> chain b r c -> chain a ((a, b) :: r) c.

(** The part of a slice a range denotes. *)
Definition seg {A} (l : list A) (r : nat * nat) : list A := firstn (snd r - fst r) (skipn (fst r) l).

Definition size (r : nat * nat) : nat := snd r - fst r.

(** What a transform does with a whole source [l]: it returns the values [w] and then the error [e]; at no time has
    it returned more values than it has read ([d] is the difference so far). Independent of any memory. *)
Inductive runs {T U Q} (act : Q -> action T U Q) : nat -> Q -> list T -> list U -> err -> Prop :=
| runs_read d q k x l w e : act q = ARead k -> runs act (S d) (k (Some x)) l w e -> runs act d q (x :: l) w e
| runs_eoi d q k w e : act q = ARead k -> runs act d (k None) [] w e -> runs act d q [] w e
| runs_emit d q u q' l w e : act q = AEmit u q' -> runs act d q' l w e -> runs act (S d) q l (u :: w) e
| runs_end d q l e : act q = AEnd e -> runs act d q l [] e.

(** The same without the restriction: however many values it has returned at any time. *)
Inductive makes {T U Q} (act : Q -> action T U Q) : Q -> list T -> list U -> err -> Prop :=
| makes_read q k x l w e : act q = ARead k -> makes act (k (Some x)) l w e -> makes act q (x :: l) w e
| makes_eoi q k w e : act q = ARead k -> makes act (k None) [] w e -> makes act q [] w e
| makes_emit q u q' l w e : act q = AEmit u q' -> makes act q' l w e -> makes act q l (u :: w) e
| makes_end q l e : act q = AEnd e -> makes act q l [] e.

(** A transform that returns more than [n] values from the source [l], and the first [n] of them no sooner than it has read as
    many ([d] is the difference so far). *)
Inductive overruns {T U Q} (act : Q -> action T U Q) : nat -> Q -> list T -> nat -> Prop :=
| over_read d q k x l n : act q = ARead k -> overruns act (S d) (k (Some x)) l n -> overruns act d q (x :: l) n
| over_eoi d q k n : act q = ARead k -> overruns act d (k None) [] n -> overruns act d q [] n
| over_emit d q u q' l n : act q = AEmit u q' -> overruns act d q' l n -> overruns act (S d) q l (S n)
| over_more d q u q' l : act q = AEmit u q' -> overruns act d q l 0.

(** A transform one of whose callbacks panics at some point while it runs over the source [l]. *)
Inductive dies {T U Q} (act : Q -> action T U Q) : nat -> Q -> list T -> Prop :=
| dies_read d q k x l : act q = ARead k -> dies act (S d) (k (Some x)) l -> dies act d q (x :: l)
| dies_eoi d q k : act q = ARead k -> dies act d (k None) [] -> dies act d q []
| dies_emit d q u q' l : act q = AEmit u q' -> dies act d q' l -> dies act (S d) q l
| dies_now d q l : act q = ACrash -> dies act d q l.

(** What is in a worker's part of the output in the end, [old] being what was there at the start. *)
Definition left_by {U} `{Zero U} (old w : list U) (e : err) : list U :=
  match e with
  | EOI => w ++ skipn (length w) old
  | _ => repeat zv (length old)
  end.

Definition err_of (e : err) : option err := match e with EOI => None | _ => Some e end.

(** The first element of a list of optional errors that is one. *)
Fixpoint first_of (l : list (option err)) : option err :=
  match l with [] => None | Some e :: _ => Some e | None :: r => first_of r end.

(** MapError over a list: the values before the first rejected one, and the error. *)
Fixpoint map_until {T U} (f : T -> ret U) (l : list T) : list U * err :=
  match l with
  | [] => ([], EOI)
  | x :: r => match f x with
              | (u, None) => (u :: fst (map_until f r), snd (map_until f r))
              | (_, Some e) => ([], e)
              end
  end.
