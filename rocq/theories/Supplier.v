(** Model of funcs/funcs.go:1267-1280, SupplierCached, when the closure it returns is shared by any number of goroutines.

    The accesses to the two captured variables are the steps that interleave (sequentially consistent memory; the Go memory
    model promises less for programs with data races, so every behaviour here is possible and more may be).  The assignment
    isCached, cachedVal = true, supplier()  calls the supplier first and then stores the two values from left to right, as the Go
    specification prescribes. *)
From Verif Require Import Base.
Open Scope nat_scope.

Section Shared.
  Context {T W : Type} {ZT : Zero T}.
  (** the supplier, on whatever state it keeps; a call of it is one step (simplification: it does not panic here) *)
  Variable supplier : W -> T * W.

  (** where a goroutine is: outside; past the test of isCached, which was false; past the call, with its result; past the store of
      isCached; about to execute  return cachedVal *)
  Inductive gopc : Type := Outside | Missed | Called (v : T) | Flagged (v : T) | Returning.

  (** isCached, cachedVal, the state of the supplier; what it has returned so far, latest first; the calls of the closure that
      have returned, latest first: goroutine and result; where each goroutine is *)
  Record shared : Type := Shared {
    isCached : bool; cachedVal : T; sup : W;
    supplied : list T; results : list (nat * T); pcs : nat -> gopc
  }.
  Definition shared0 (w : W) : shared := Shared false zv w [] [] (fun _ => Outside).
  Definition goto (f : nat -> gopc) (g : nat) (p : gopc) : nat -> gopc := fun i => if i =? g then p else f i.

  (** the next step of goroutine [g]; outside, it is the start of a call, with the test of isCached *)
  Definition gostep (s : shared) (g : nat) : shared :=
    match pcs s g with
    | Outside => Shared (isCached s) (cachedVal s) (sup s) (supplied s) (results s)
                   (goto (pcs s) g (if isCached s then Returning else Missed))
    | Missed => let (v, w) := supplier (sup s) in
                Shared (isCached s) (cachedVal s) w (v :: supplied s) (results s) (goto (pcs s) g (Called v))
    | Called v => Shared true (cachedVal s) (sup s) (supplied s) (results s) (goto (pcs s) g (Flagged v))
    | Flagged v => Shared (isCached s) v (sup s) (supplied s) (results s) (goto (pcs s) g Returning)
    | Returning => Shared (isCached s) (cachedVal s) (sup s) (supplied s) ((g, cachedVal s) :: results s)
                     (goto (pcs s) g Outside)
    end.
  (** a schedule: the goroutines in the order of their steps *)
  Definition gorun (schedule : list nat) (s : shared) : shared := fold_left gostep schedule s.
End Shared.
Arguments shared : clear implicits.
Arguments gopc : clear implicits.
