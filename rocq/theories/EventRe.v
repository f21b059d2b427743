(** Model of event/event.go when receivers use the registry they are registered in while it is sending: "Receivers can be
    registered at any time", "A receiver may also be a sender".

    The registry and its operations are those of FuncsOrd.v.  The slices of receivers inside the tuples are plain lists there;
    this loses nothing here, because no operation overwrites a cell of such a slice that a header still shows: Register appends
    behind its end and Remove copies (funcs/funcs.go:174-233). *)
From Verif Require Import Base SliceMem FuncsFn FuncsOrd FuncsOrdSpec.
Open Scope nat_scope.
Open Scope go_scope.

(** What a receiver does in one call of Process: any number of operations on the registry, each decided by the results of the
    ones before, and then the result.  [W] is everything receivers remember between calls. *)
Inductive prog (I R T W : Type) : Type :=
| PRet (t : T) (w : W)
| POp (op : ordop I R) (p : prog I R T W)              (* Register, RemoveId or Remove *)
| PSend (t : T) (w : W) (k : T -> W -> prog I R T W).  (* Send on the same registry *)
Arguments PRet {I R T W}. Arguments POp {I R T W}. Arguments PSend {I R T W}.

Section Send.
  Context {I R T W : Type} (o : gord I) (addr : R -> Z) (ex : nat -> nat -> nat) {ZT : Zero (I * list R)}.
  Variable process : R -> T -> W -> prog I R T W.
  Notation reg := (registry I R).
  Notation call := (R * T * T)%type. (* a receiver, the value it is given and the value it returns *)

  Section Loops.
    Variable run : reg -> prog I R T W -> outcome (T * W * reg).
    (** event/event.go:90-92, for _, rcvr := range idRcvrs.U { val = rcvr.Process(val) } *)
    Fixpoint rcvr_loop (rs : list R) (val : T) (w : W) (r : reg) : outcome (list call * T * W * reg) :=
      match rs with
      | [] => Done ([], val, w, r)
      | rcvr :: rest =>
          let! (val', w', r') := run r (process rcvr val w) in
          let! (cs, val'', w'', r'') := rcvr_loop rest val' w' r' in
          Done ((rcvr, val, val') :: cs, val'', w'', r'')
      end.
    (** event/event.go:89-93, for _, idRcvrs := range r.receivers: the slice [s] is evaluated once, its elements are read when the
        loop reaches them; [n] iterations remain, the next one is for element [i] *)
    Fixpoint id_loop (s : slice) (n i : nat) (val : T) (w : W) (r : reg) : outcome (list call * T * W * reg) :=
      match n with
      | 0 => Done ([], val, w, r)
      | S n' =>
          let! e := sget (rmem r) s i in
          let! (cs, val', w', r') := rcvr_loop (snd e) val w r in
          let! (cs', val'', w'', r'') := id_loop s n' (S i) val' w' r' in
          Done (cs ++ cs', val'', w'', r'')
      end.
  End Loops.

  (** one call of Process; [fuel] bounds the depth of nested Sends *)
  Fixpoint run_prog (fuel : nat) : reg -> prog I R T W -> outcome (T * W * reg) :=
    fix go (r : reg) (p : prog I R T W) : outcome (T * W * reg) :=
      match p with
      | PRet t w => Done (t, w, r)
      | POp op p' => let! r' := run_evop o addr ex r op in go r' p'
      | PSend t w k =>
          match fuel with
          | 0 => OutOfFuel
          | S fuel' =>
              let! (_, t', w', r') := id_loop (run_prog fuel') (receivers r) (slen (receivers r)) 0 t w r in
              go r' (k t' w')
          end
      end.

  (** event/event.go:88-96, Send, with the calls it makes itself *)
  Definition send (fuel : nat) (r : reg) (val : T) (w : W) : outcome (list call * T * W * reg) :=
    id_loop (run_prog fuel) (receivers r) (slen (receivers r)) 0 val w r.
End Send.
