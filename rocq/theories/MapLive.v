(** iter.OfMap over a map that changes while it is iterated.

    The Go language fixes what a range over a map, and so reflect.MapIter, may do when the map is written to: entries removed before they
    are reached are not produced, entries created during the iteration may be produced or not, every other entry is produced once.  The
    order, and which created entries are produced, are up to the runtime: [pick]. *)
From Verif Require Import Base GoMap.
Open Scope go_scope.
Open Scope nat_scope.

Section Live.
  Context {K V : Type} {ZK : Zero K} {ZV : Zero V}.
  Variable eqb : K -> K -> bool.
  (** a key/value is the nil value of an interface type: the type assertions of line 70 panic *)
  Variables (nilK : K -> bool) (nilV : V -> bool).

  (** The map and one reflect.MapIter over it.  [must]: keys the runtime has yet to produce; [may]: keys it can produce or not;
      [started]: Next of the MapIter has been called (the runtime begins the iteration then); [fin]: the variable done of MapIterGen;
      [calls]: how often the iterator was called (only for [pick] to depend on). *)
  Record live : Type := mkLive { ents : list (K * V); must : list K; may : list K; started : bool; fin : bool; calls : nat }.
  Definition fresh (m : list (K * V)) : live := mkLive m [] [] false false 0.

  Definition without (k : K) (l : list K) : list K := filter (fun x => negb (eqb k x)) l.
  (** m[k] = v by anyone (io/writer/gen.go:36 is one such place) *)
  Definition do_set (s : live) (k : K) (v : V) : live :=
    mkLive (mset eqb (ents s) k v) (must s)
      (if started s && match mget eqb (ents s) k with None => true | Some _ => false end then k :: may s else may s) (started s) (fin s) (calls s).
  (** delete(m, k) by anyone *)
  Definition do_del (s : live) (k : K) : live :=
    mkLive (mdel eqb (ents s) k) (without k (must s)) (without k (may s)) (started s) (fin s) (calls s).

  (** What the runtime chooses at a call: a key it still has to or can produce, or the end when nothing has to be produced any more. *)
  Definition legal (pick : live -> option K) : Prop := forall s,
    match pick s with Some k => In k (must s ++ may s) | None => must s = [] end.

  (** reflect.MapIter.Next (Go runtime, trusted to be as described): the first call begins the iteration *)
  Definition begin_iter (s : live) : live := if started s then s else mkLive (ents s) (map fst (ents s)) [] true (fin s) (calls s).
  (** iter/gen.go:60-71, the function MapIterGen returns *)
  Definition map_live (pick : live -> option K) (s0 : live) : outcome (ret (K * V) * live) :=
    if fin s0 then Done ((zv, Some EOI), s0) else
    let s := begin_iter s0 in
    match pick s with
    | None => Done ((zv, Some EOI), mkLive (ents s) (must s) (may s) true true (calls s + 1))
    | Some k =>
        match mget eqb (ents s) k with
        | None => Panicked
        | Some v => if nilK k || nilV v then Panicked
                    else Done (((k, v), None), mkLive (ents s) (without k (must s)) (without k (may s)) true false (calls s + 1))
        end
    end.

  (** What happens in a program with one iterator over a map: writes by anyone and calls of the iterator with their answers. *)
  Inductive event : Type := ESet (k : K) (v : V) | EDel (k : K) | ENext (r : ret (K * V)).
  Inductive runs (pick : live -> option K) : live -> list event -> live -> Prop :=
  | run_end s : runs pick s [] s
  | run_set s k v es s' : runs pick (do_set s k v) es s' -> runs pick s (ESet k v :: es) s'
  | run_del s k es s' : runs pick (do_del s k) es s' -> runs pick s (EDel k :: es) s'
  | run_next s r s1 es s' : map_live pick s = Done (r, s1) -> runs pick s1 es s' -> runs pick s (ENext r :: es) s'.

  (** The loop  for { kv, err := it.Next(); if err != nil { break }; act }  where act writes to the same map. *)
  Fixpoint each (pick : live -> option K) (act : live -> K * V -> live) (fuel : nat) (s : live) : outcome (list (K * V) * live) :=
    match fuel with
    | 0 => OutOfFuel
    | S fuel' =>
        let! (r, s1) := map_live pick s in
        match r with
        | (kv, None) => let! (l, s2) := each pick act fuel' (act s1 kv) in Done (kv :: l, s2)
        | (_, Some _) => Done ([], s1)
        end
    end.
  (** OfMapWriter(m), io/writer/gen.go:34-39, given g(k, v): the map the iterator reads gets an entry *)
  Definition write_to (g : K * V -> K * V) (s : live) (kv : K * V) : live := let (k, v) := g kv in do_set s k v.
  (** the entry just delivered is updated or deleted *)
  Definition update_own (g : K -> V -> option V) (s : live) (kv : K * V) : live :=
    match g (fst kv) (snd kv) with Some v => do_set s (fst kv) v | None => do_del s (fst kv) end.
End Live.
Arguments live : clear implicits.
Arguments event : clear implicits.
