(** Go slices with their backing arrays.

    A memory is a list of arrays, an array is the list of its cells.  A slice is nil or a header: an array, an offset, a
    length and a capacity.  This is the part of the Go language that decides which of two slices see each other's
    writes; it is used for funcs/funcs.go, where some helpers work in place and others copy. *)
From Verif Require Import Base.
Open Scope nat_scope.

Record hdr : Set := Hdr { arr : nat; off : nat; len : nat; cap : nat }.
(** [None] is the nil slice. *)
Definition slice : Set := option hdr.

Definition slen (s : slice) : nat := match s with Some h => len h | None => 0 end.
Definition scap (s : slice) : nat := match s with Some h => cap h | None => 0 end.

Section Mem.
  Context {T : Type} {ZT : Zero T}.
  Definition mem : Type := list (list T).

  (** array [a] of the memory, and one cell of it *)
  Definition array (m : mem) (a : nat) : list T := nth a m [].
  Definition cell (m : mem) (a i : nat) : option T := nth_error (array m a) i.

  (** the values slc[0], ..., slc[len(slc)-1] *)
  Definition contents (m : mem) (s : slice) : list T :=
    match s with
    | None => []
    | Some h => firstn (len h) (skipn (off h) (array m (arr h)))
    end.

  (** headers that a running Go program can hold *)
  Definition valid (m : mem) (s : slice) : Prop :=
    match s with
    | None => True
    | Some h => arr h < length m /\ len h <= cap h /\ off h + cap h <= length (array m (arr h))
    end.

  (** overwrite the cells i, i+1, ... of an array *)
  Definition write_at (l : list T) (i : nat) (vs : list T) : list T := firstn i l ++ vs ++ skipn (i + length vs) l.
  Definition upd (m : mem) (a : nat) (l : list T) : mem := firstn a m ++ l :: skipn (S a) m.

  (** slc[i]; a run-time panic out of range *)
  Definition sget (m : mem) (s : slice) (i : nat) : outcome T :=
    match nth_error (contents m s) i with Some v => Done v | None => Panicked end.

  (** slc[i] = v *)
  Definition sset (m : mem) (s : slice) (i : nat) (v : T) : outcome mem :=
    match s with
    | None => Panicked
    | Some h => if i <? len h then Done (upd m (arr h) (write_at (array m (arr h)) (off h + i) [v])) else Panicked
    end.

  (** make([]T, n, c), and []T{} for n = c = 0 *)
  Definition smake (m : mem) (n c : nat) : mem * slice :=
    (m ++ [repeat zv (n + (c - n))], Some (Hdr (length m) 0 n (n + (c - n)))).

  (** slc[lo:hi]; a run-time panic when the bounds are not 0 <= lo <= hi <= cap *)
  Definition reslice (s : slice) (lo hi : nat) : outcome slice :=
    if (lo <=? hi) && (hi <=? scap s) then
      match s with
      | None => Done None
      | Some h => Done (Some (Hdr (arr h) (off h + lo) (hi - lo) (cap h - lo)))
      end
    else Panicked.

  (** append(slc, vs...): in place when the capacity suffices, otherwise into a new array whose spare capacity
      [ex oldcap needed] is up to the Go runtime. *)
  Definition sappend (ex : nat -> nat -> nat) (m : mem) (s : slice) (vs : list T) : mem * slice :=
    let need := slen s + length vs in
    if need <=? scap s then
      match s with
      | None => (m, None)
      | Some h => (upd m (arr h) (write_at (array m (arr h)) (off h + len h) vs),
                   Some (Hdr (arr h) (off h) need (cap h)))
      end
    else
      (m ++ [contents m s ++ vs ++ repeat zv (ex (scap s) need)],
       Some (Hdr (length m) 0 need (need + ex (scap s) need))).

  (** copy(dst, src) *)
  Definition scopy (m : mem) (dst src : slice) : mem :=
    match dst with
    | None => m
    | Some h => let vs := firstn (len h) (contents m src) in
                upd m (arr h) (write_at (array m (arr h)) (off h) vs)
    end.

  (** [m'] is [m] with some new arrays and with writes to the cells in [P] only *)
  Definition frame (P : nat -> nat -> Prop) (m m' : mem) : Prop :=
    length m <= length m' /\
    (forall a, a < length m -> length (array m' a) = length (array m a)) /\
    (forall a i, a < length m -> ~ P a i -> cell m' a i = cell m a i).

  Definition nowhere (a i : nat) : Prop := False.
  (** the cells slc[0], ..., slc[len(slc)-1] *)
  Definition cells_of (s : slice) (a i : nat) : Prop :=
    match s with None => False | Some h => a = arr h /\ off h <= i < off h + len h end.
  (** the cell append(slc, v) writes to when it works in place *)
  Definition spare_cell (s : slice) (a i : nat) : Prop :=
    match s with None => False | Some h => a = arr h /\ i = off h + len h /\ len h < cap h end.
End Mem.
Arguments mem T : clear implicits.
