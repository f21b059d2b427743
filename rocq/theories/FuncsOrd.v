(** Model of funcs/funcs.go:608-716 (a slice of tuples used as a sorted map) and of event/event.go, which is built on it.

    The outer slice lives in the memory of SliceMem.v; the slices of values inside the tuples are plain lists
    (simplification: no sharing between them; PropsFuncs C43 and C44 treat slices of values with their arrays). *)
From Verif Require Import Base SliceMem FuncsFn.
Open Scope nat_scope.
Open Scope go_scope.

Section Ordered.
  Context {K : Type} (o : gord K).

  Section Search.
    Context {V : Type}.
    (** funcs/funcs.go:654-668, the loop; [fuel] bounds the number of iterations *)
    Fixpoint search_loop (fuel : nat) (mp : list (K * V)) (key : K) (l r : nat) : outcome (Z * bool) :=
      if l =? r then
        match nth_error mp l with
        | Some e => Done (Z.of_nat l, oeq o key (fst e))
        | None => Panicked
        end
      else
        match fuel with
        | 0 => OutOfFuel
        | S fuel' =>
            let m := Nat.div (l + r) 2 in
            let m := if Nat.modulo (l + r) 2 =? 1 then m + 1 else m in
            match nth_error mp m with
            | None => Panicked
            | Some e => if ogt o (fst e) key then search_loop fuel' mp key l (m - 1) else search_loop fuel' mp key m r
            end
        end.
    (** funcs/funcs.go:617-669, OrderedTuple2Search; the index -1 is returned for an empty slice. *)
    Definition ord_search (mp : list (K * V)) (key : K) : outcome (Z * bool) :=
      if length mp =? 0 then Done ((-1)%Z, false) else search_loop (length mp) mp key 0 (length mp - 1).
  End Search.

  Section Multi.
    Context {V : Type}.
    Variable ex : nat -> nat -> nat.
    Notation tup := (K * list V)%type.
    Context {ZT : Zero (K * list V)}.

    (** funcs/funcs.go:674-690, OrderedTuple2SliceAdd *)
    Definition ord_add (m : mem tup) (mp : slice) (key : K) (value : V) : outcome (mem tup * slice) :=
      let! (index, matches) := ord_search (contents m mp) key in
      if (index =? -1)%Z then Done (m ++ [[(key, [value])]], Some (Hdr (length m) 0 1 1))
      else if matches then
        let! old := sget m mp (Z.to_nat index) in
        let! m' := sset m mp (Z.to_nat index) (key, snd old ++ [value]) in
        Done (m', mp)
      else
        let (m1, s1) := smake m 0 0 in
        let! before := reslice mp 0 (Z.to_nat index + 1) in
        let (m2, s2) := sappend ex m1 s1 (contents m1 before) in
        let (m3, s3) := sappend ex m2 s2 [(key, [value])] in
        let! after := reslice mp (Z.to_nat index + 1) (slen mp) in
        Done (sappend ex m3 s3 (contents m3 after)).

    (** funcs/funcs.go:693-697, OrderedTuple2SliceRemoveKey: append(mp[:index], mp[index+1:]...) works in place *)
    Definition ord_remove_key (m : mem tup) (mp : slice) (key : K) : outcome (mem tup * slice) :=
      let! (index, matches) := ord_search (contents m mp) key in
      if matches then
        let! before := reslice mp 0 (Z.to_nat index) in
        let! after := reslice mp (Z.to_nat index + 1) (slen mp) in
        Done (sappend ex m before (contents m after))
      else Done (m, mp).

    (** funcs/funcs.go:177-235, SliceRemove and SliceRemoveUncomparable on plain lists *)
    Fixpoint remove_elem (same : V -> bool) (l : list V) : list V :=
      match l with [] => [] | x :: r => if same x then r else x :: remove_elem same r end.
    Fixpoint remove_elems (same : V -> bool) (l : list V) : list V :=
      match l with [] => [] | x :: r => if same x then remove_elems same r else x :: remove_elems same r end.

    (** funcs/funcs.go:701-705 OrderedTuple2SliceRemoveValue and 709-713 OrderedTuple2SliceRemoveUncomparable *)
    Definition ord_remove_value (same : V -> bool) (m : mem tup) (mp : slice) (key : K) (all : bool) : outcome (mem tup * slice) :=
      let! (index, matches) := ord_search (contents m mp) key in
      if matches then
        let! old := sget m mp (Z.to_nat index) in
        let! m' := sset m mp (Z.to_nat index) (key, if all then remove_elems same (snd old) else remove_elem same (snd old)) in
        Done (m', mp)
      else Done (m, mp).
  End Multi.
End Ordered.

(** ** event/event.go *)
Section Event.
  Context {I R T W : Type} (o : gord I) (ex : nat -> nat -> nat) {ZT : Zero (I * list R)}.
  (** Receiver.Process *)
  Variable process : R -> T -> W -> T * W.
  (** the %p rendering of a receiver: for a ReceiverFunc the address of its code, which all closures made by the same
      function literal share *)
  Variable addr : R -> Z.

  (** event/event.go:54-56, Registry: the slice variable and the memory it lives in *)
  Record registry := Reg { rmem : mem (I * list R); receivers : slice }.
  Definition registry0 : registry := Reg [] None.

  (** event/event.go:63-66, Register *)
  Definition ev_register (r : registry) (id : I) (rcvr : R) : outcome registry :=
    let! (m, s) := ord_add o ex (rmem r) (receivers r) id rcvr in Done (Reg m s).
  (** event/event.go:69-72, RemoveId *)
  Definition ev_remove_id (r : registry) (id : I) : outcome registry :=
    let! (m, s) := ord_remove_key o ex (rmem r) (receivers r) id in Done (Reg m s).
  (** event/event.go:76-78, Remove *)
  Definition ev_remove (r : registry) (id : I) (rcvr : R) (all : bool) : outcome registry :=
    let! (m, s) := ord_remove_value o (fun x => Z.eqb (addr x) (addr rcvr)) (rmem r) (receivers r) id all in Done (Reg m s).

  (** event/event.go:88-96, Send: the two nested loops *)
  Fixpoint send_rcvrs (rs : list R) (val : T) (w : W) : T * W :=
    match rs with [] => (val, w) | r :: rest => let (val', w') := process r val w in send_rcvrs rest val' w' end.
  Fixpoint send_ids (ids : list (I * list R)) (val : T) (w : W) : T * W :=
    match ids with [] => (val, w) | e :: rest => let (val', w') := send_rcvrs (snd e) val w in send_ids rest val' w' end.
  Definition ev_send (r : registry) (val : T) (w : W) : T * W := send_ids (contents (rmem r) (receivers r)) val w.
End Event.
Arguments registry I R : clear implicits.
