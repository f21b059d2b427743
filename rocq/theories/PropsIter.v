(** Property theorems C01-C08: iterators and generators.  Nothing but statements; proofs are in the Proofs files. *)
From Coq Require Import Permutation.
From Verif Require Import Base IterSpec Iter IterProofs IterGen IterGenProofs GoInt.
Open Scope nat_scope.

(** C01. Over a source that returns the values [l] and then the error [e], any history of Next and Unread gives
    the outputs of the abstract iterator: a list with push-front (Unread) and pop-front (Next), then (zero, e). *)
Theorem C01_history_finite {S T : Type} `{Zero T} (fn : stepfn S T) ops s l s' e s'' :
  emits fn s l s' -> fails fn s' e s'' ->
  exists n, forall m, n <= m -> exists it', run_ops fn m ops (ofIter s) = Done (spec_ops ops l e, it').
Proof. exact (run_ops_finite fn ops s l s' e s''). Qed.
Print Assumptions C01_history_finite.

(** C01, infinite sources: it is enough to know as many source values as the history can ask for. *)
Theorem C01_history_prefix {S T : Type} `{Zero T} (fn : stepfn S T) ops s l s' e :
  emits fn s l s' -> enough ops (length l) = true ->
  exists n, forall m, n <= m -> exists it', run_ops fn m ops (ofIter s) = Done (spec_ops ops l e, it').
Proof. exact (run_ops_prefix fn ops s l s' e). Qed.
Print Assumptions C01_history_prefix.

(** C01, unread values come before the source, without touching it: whatever the underlying function does (it may loop
    for ever, fail or panic), after a history in which Next is never called with nothing left unread, the outputs are
    those of the stack alone, and the underlying function's state is as it was.  The history may start after any other
    history that left the iterator with the values [b] unread. *)
Theorem C01_source_untouched {S T : Type} `{Zero T} (fn : stepfn S T) fuel ops live s b le e :
  enough ops (length b) = true ->
  exists b', run_ops fn fuel ops (mkImpl live s b le) = Done (spec_ops ops (rev b) e, mkImpl live s b' le).
Proof. exact (run_ops_buffered fn fuel ops e live s b le). Qed.
Print Assumptions C01_source_untouched.

Example C01_untouched_ex :
  run_ops (fun _ _ => Panicked) 0 [OUnread 1%Z; OUnread 2%Z; ONext; OUnread 3%Z; ONext; ONext] (ofIter tt)
  = Done ([(2%Z, None); (3%Z, None); (1%Z, None)], ofIter tt).
Proof. reflexivity. Qed.

Example C01_nonvacuous :
  emits (slice_gen [10; 20]%Z) 0 [10; 20]%Z 2 /\ fails (slice_gen [10; 20]%Z) 2 EOI 2 /\
  run_ops (slice_gen [10; 20]%Z) 5 [ONext; OUnread 7%Z; OUnread 8%Z; ONext; ONext; ONext; ONext; ONext] (ofIter 0)
  = Done ([(10%Z, None); (8%Z, None); (7%Z, None); (20%Z, None); (0%Z, Some EOI); (0%Z, Some EOI)],
          mkImpl false 2 [] (Some EOI)).
Proof. split; [apply (slice_emits [10; 20]%Z)|]. split; [apply (slice_fails [10; 20]%Z)|reflexivity]. Qed.

(** C02. After any history at all, over any underlying function at all, a Next that returns an error returns the
    zero value with it, and from then on every history behaves as a bare stack of unread values over
    (zero, the same error); the underlying function's captured state never changes again, and the answers do not
    depend on its fuel (not even 0), i.e. it is not called. *)
Theorem C02_error_final {S T : Type} `{Zero T} (fn : stepfn S T) fuel ops s rs it fuel1 v e it1 :
  run_ops fn fuel ops (ofIter s) = Done (rs, it) ->
  next fn fuel1 it = Done ((v, Some e), it1) ->
  v = zv /\
  forall fuel' ops', exists it',
    run_ops fn fuel' ops' it1 = Done (spec_ops ops' [] e, it') /\ src it' = src it1.
Proof. exact (error_final fn fuel ops s rs it fuel1 v e it1). Qed.
Print Assumptions C02_error_final.

(** an adversarial function: error with a non-zero value on the first call, values again afterwards *)
Example C02_nonvacuous :
  let fn : stepfn nat Z := fun _ k => if k =? 0 then Done ((5%Z, Some EOF), 1) else Done ((6%Z, None), k + 1) in
  run_ops fn 3 [OUnread 1%Z; ONext] (ofIter 0) = Done ([(1%Z, None)], ofIter 0) /\
  next fn 3 (ofIter 0) = Done ((0%Z, Some EOF), mkImpl false 1 [] (Some EOF)).
Proof. split; reflexivity. Qed.

(** C03. SetError: same values, replacement error for ever. *)
Theorem C03_set_error {S T : Type} `{Zero T} (nx : stepfn S T) e s l e0 :
  yields nx s l e0 -> yields (next (set_error_gen nx e)) (ofIter s) l e.
Proof. exact (set_error_yields nx e s l e0). Qed.
Print Assumptions C03_set_error.

(** C03, any prefix of a possibly infinite iterator, pulled one for one. *)
Theorem C03_set_error_prefix {S T : Type} `{Zero T} (nx : stepfn S T) e s l s' :
  emits nx s l s' -> emits (next (set_error_gen nx e)) (ofIter s) l (ofIter s').
Proof. exact (set_error_prefix nx e s l s'). Qed.
Print Assumptions C03_set_error_prefix.

Example C03_nonvacuous :
  yields (next (slice_gen [1; 2]%Z)) (ofIter 0) [1; 2]%Z EOI /\
  yields (next (set_error_gen (next (slice_gen [1; 2]%Z)) (UserErr 9))) (ofIter (ofIter 0)) [1; 2]%Z (UserErr 9).
Proof. split; [apply slice_yields|]. eapply C03_set_error. apply slice_yields. Qed.

(** C04. Iterators over a slice (Of, OfSlice), nothing (OfEmpty), one value (OfOne). *)
Theorem C04_of_slice {T : Type} `{Zero T} (slc : list T) : yields (next (slice_gen slc)) (ofIter 0) slc EOI.
Proof. exact (slice_yields slc). Qed.
Print Assumptions C04_of_slice.

Theorem C04_of_empty {T : Type} `{Zero T} : yields (next (@novalue_gen T _)) (ofIter tt) [] EOI.
Proof. exact novalue_yields. Qed.
Print Assumptions C04_of_empty.

Theorem C04_of_one {T : Type} `{Zero T} (v : T) : yields (next (single_gen v)) (ofIter false) [v] EOI.
Proof. exact (single_yields v). Qed.
Print Assumptions C04_of_one.

(** A behaviour in the sense of [yields] is unique, so the theorems above determine it. *)
Theorem C04_behaviour_unique {S T : Type} `{Zero T} (f : stepfn S T) s l1 e1 l2 e2 :
  yields f s l1 e1 -> yields f s l2 e2 -> l1 = l2 /\ e1 = e2.
Proof. exact (yields_det f s l1 e1 l2 e2). Qed.
Print Assumptions C04_behaviour_unique.

Example C04_nonvacuous : ~ yields (next (slice_gen [1; 2]%Z)) (ofIter 0) [2; 1]%Z EOI.
Proof. intros Y. destruct (C04_behaviour_unique _ _ _ _ _ _ (C04_of_slice [1; 2]%Z) Y). discriminate. Qed.

(** C05. Whatever order the runtime chooses, each entry exactly once, provided no key or value is a nil interface. *)
Theorem C05_map_entries {K V : Type} `{Zero K} `{Zero V} (nilK : K -> bool) (nilV : V -> bool)
  (entries order : list (K * V)) :
  Permutation entries order ->
  (forall k v, In (k, v) entries -> nilK k = false /\ nilV v = false) ->
  exists out, yields (next (map_gen nilK nilV)) (ofIter (order, false)) out EOI /\ Permutation entries out.
Proof. exact (map_yields_perm nilK nilV entries order). Qed.
Print Assumptions C05_map_entries.

(** C05 finding: an entry with a nil interface value (or key) makes Next panic once it is reached. *)
Theorem C05_map_nil_interface_panics {K V : Type} `{Zero K} `{Zero V} (nilK : K -> bool) (nilV : V -> bool)
  (pre : list (K * V)) k v post :
  forallb (fun kv => negb (nilK (fst kv) || nilV (snd kv))) pre = true ->
  nilK k || nilV v = true ->
  exists s', emits (next (map_gen nilK nilV)) (ofIter (pre ++ (k, v) :: post, false)) pre s'
             /\ panics (next (map_gen nilK nilV)) s'.
Proof. exact (map_nil_panics nilK nilV pre k v post). Qed.
Print Assumptions C05_map_nil_interface_panics.

(** map[int]any{1: "x", 2: nil} as option values *)
Example C05_nonvacuous :
  let nilV (v : option Z) := match v with None => true | _ => false end in
  forallb (fun kv : Z * option Z => negb (false || nilV (snd kv))) [(1, Some 5)]%Z = true /\ nilV None = true.
Proof. split; reflexivity. Qed.

(** C06. Concat over iterators in a shared world. *)
Theorem C06_concat {H T : Type} `{Zero T} (its : list (option (stepfn H T))) h l e h' :
  seq_run its h l e h' ->
  exists st1 st2,
    emits (next (concat_gen its)) (ofIter (concat_init h)) l (ofIter st1) /\
    returns (next (concat_gen its)) (ofIter st1) (zv, Some e) (dead st2 e) /\ snd st2 = h' /\
    yields (next (concat_gen its)) (ofIter (concat_init h)) l e.
Proof. exact (concat_correct its h l e h'). Qed.
Print Assumptions C06_concat.

(** C06 for separate iterators: their sequences are concatenated. *)
Theorem C06_concat_independent {S T : Type} `{Zero T} (fs : list (stepfn S T)) ss ls :
  length fs = length ss ->
  Forall2 (fun p l => yields (fst p) (snd p) l EOI) (combine fs ss) ls ->
  yields (next (concat_gen (indep fs))) (ofIter (concat_init ss)) (concat ls) EOI.
Proof. exact (concat_independent fs ss ls). Qed.
Print Assumptions C06_concat_independent.

Example C06_nonvacuous :
  yields (next (concat_gen (indep [next (slice_gen [1; 2]%Z); next (slice_gen []); next (slice_gen [3]%Z)])))
         (ofIter (concat_init [ofIter 0; ofIter 0; ofIter 0])) [1; 2; 3]%Z EOI.
Proof.
  apply (C06_concat_independent _ _ [[1; 2]%Z; []; [3]%Z]); [reflexivity|].
  repeat (constructor; [apply slice_yields|]). constructor.
Qed.

(** a nil iterator, an iterator failing after one value, an iterator never reached *)
Example C06_nonvacuous_error :
  let bad : stepfn (nat * nat) Z := fun _ w =>
    if fst w =? 0 then Done ((4%Z, None), (1, snd w)) else Done ((0%Z, Some (UserErr 7)), w) in
  let never : stepfn (nat * nat) Z := fun _ w => Done ((9%Z, None), (fst w, snd w + 1)) in
  seq_run [None; Some bad; Some never] (0, 0) [4]%Z (UserErr 7) (1, 0).
Proof.
  intros bad never. apply seq_skip. eapply seq_err with (h1 := (1, 0)).
  - econstructor; [|constructor]. exists 0. reflexivity.
  - exists 0%Z, 0. reflexivity.
  - discriminate.
Qed.

(** C07. With initial values [lits ++ [seed]]: the literals, then f seed, f (f seed), ...; never an error. *)
Theorem C07_infinite_seeded {T : Type} `{Zero T} (f : T -> T) lits seed n :
  emits (next (infinite_gen (pure_cb f))) (ofIter (infinite_init (lits ++ [seed]) tt))
        (lits ++ map (fun i => Nat.iter (S i) f seed) (seq 0 n))
        (ofIter ([], Nat.iter n f seed, tt)).
Proof. exact (infinite_seeded f lits seed n). Qed.
Print Assumptions C07_infinite_seeded.

Theorem C07_infinite_unseeded {T : Type} `{Zero T} (f : T -> T) n :
  emits (next (infinite_gen (pure_cb f))) (ofIter (infinite_init [] tt))
        (map (fun i => Nat.iter (S i) f zv) (seq 0 n))
        (ofIter ([], Nat.iter n f zv, tt)).
Proof. exact (infinite_unseeded f n). Qed.
Print Assumptions C07_infinite_unseeded.

Example C07_nonvacuous :
  [10; 20]%Z ++ map (fun i => Nat.iter (S i) (Z.mul 2) 3%Z) (seq 0 3) = [10; 20; 6; 12; 24]%Z.
Proof. reflexivity. Qed.

(** C08. The first [n] values, for every [n]: Fibonacci numbers as 64 bit ints. *)
Theorem C08_fibonacci n :
  exists s', emits (next fib_gen) (ofIter fib_init) (map (fun i => wrapS 64 (fib (i + 1))) (seq 0 n)) s'.
Proof. exact (fib_all n). Qed.
Print Assumptions C08_fibonacci.

Theorem C08_fibonacci_exact i : i <= 91 -> wrapS 64 (fib (i + 1)) = fib (i + 1).
Proof. exact (fib_exact i). Qed.
Print Assumptions C08_fibonacci_exact.

(** The bound 91 is sharp: the next value overflows int silently. *)
Theorem C08_fibonacci_wraps : exists i, i = 92 /\ wrapS 64 (fib (i + 1)) <> fib (i + 1).
Proof. exact fib_wraps_at_92. Qed.
Print Assumptions C08_fibonacci_wraps.

Example C08_nonvacuous : map (fun i => wrapS 64 (fib (i + 1))) (seq 0 7) = [1; 1; 2; 3; 5; 8; 13]%Z.
Proof. reflexivity. Qed.
