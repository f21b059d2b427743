(** C116: iterating over a map while it changes. *)
From Coq Require Import Permutation.
From Verif Require Import Base GoMap MapLive MapLiveSpec MapLiveProofs MapLiveProofs2.
Open Scope go_scope.
Open Scope nat_scope.

Section C116.
  Context {K V : Type} {ZK : Zero K} {ZV : Zero V}.
  Variable eqb : K -> K -> bool.
  Hypothesis EQ : eq_decides eqb.
  Variables (nilK : K -> bool) (nilV : V -> bool).
  (** the choices of the Go runtime *)
  Variable pick : live K V -> option K.
  Hypothesis LEGAL : legal pick.
  Variable m : list (K * V).
  Hypothesis MOK : mok m.

  (** A pair that is delivered is in the map at that moment, with the value it has at that moment. *)
  Theorem C116_true es1 k v es2 s' : runs eqb nilK nilV pick (fresh m) (es1 ++ ENext ((k, v), None) :: es2) s' ->
    mget eqb (after eqb m es1) k = Some v.
  Proof. apply live_true; assumption. Qed.
  (** No key is delivered twice, unless it was not in the map at some moment in between. *)
  Theorem C116_once es1 k v es2 v' es3 s' :
    runs eqb nilK nilV pick (fresh m) (es1 ++ ENext ((k, v), None) :: es2 ++ ENext ((k, v'), None) :: es3) s' ->
    ~ (forall a b, es2 = a ++ b -> mget eqb (after eqb m (es1 ++ a)) k <> None).
  Proof.
    intros H AI. apply (live_once eqb EQ nilK nilV pick LEGAL m es1 k v es2 v' es3 s' MOK H). intros a b Eab X. apply (AI a b Eab). rewrite <- X. f_equal.
    clear. revert m. induction es1 as [|[] es IH]; intros m; cbn; auto.
  Qed.
  (** When the iterator says it is at the end, every key that was in the map at the first call (what was written before that belongs to
      the map) and ever since has been delivered. *)
  Theorem C116_complete es0 es1 kv e es2 s' k : quiet es0 ->
    runs eqb nilK nilV pick (fresh m) (es0 ++ es1 ++ ENext (kv, Some e) :: es2) s' ->
    (match es1 with [] | ENext _ :: _ => True | _ => False end) ->
    always_in eqb (after eqb m es0) es1 k -> exists v, In (k, v) (delivered es1).
  Proof. intros Q H. apply (live_complete eqb EQ nilK nilV pick LEGAL m es0 es1 kv e es2 s' k MOK Q H). Qed.
  (** The end is EOI and stays, whatever is added later. *)
  Theorem C116_final es1 kv e es2 s' : runs eqb nilK nilV pick (fresh m) (es1 ++ ENext (kv, Some e) :: es2) s' ->
    kv = zv /\ e = EOI /\ forall r, In (ENext r) es2 -> r = (zv, Some EOI).
  Proof. apply live_final; assumption. Qed.
  (** No more values than entries at the first call and entries created since. *)
  Theorem C116_count es0 es1 s' : quiet es0 -> runs eqb nilK nilV pick (fresh m) (es0 ++ es1) s' ->
    (match es1 with [] | ENext _ :: _ => True | _ => False end) ->
    length (delivered es1) <= length (after eqb m es0) + creations eqb (after eqb m es0) es1.
  Proof. apply live_count; assumption. Qed.

  (** A loop that updates or deletes the entry just delivered, in the map itself: it sees every original entry exactly once, and leaves
      in the map exactly the results; in particular no value is updated twice. *)
  Theorem C116_update (g : K -> V -> option V) : (forall k v, In (k, v) m -> nilK k || nilV v = false) ->
    exists l s2, (forall fuel, length m < fuel -> each eqb nilK nilV pick (update_own eqb g) fuel (fresh m) = Done (l, s2)) /\
      Permutation l m /\ mok (ents s2) /\
      forall k, mget eqb (ents s2) k = match mget eqb m k with Some v => g k v | None => None end.
  Proof. intros NN. apply (own_done eqb EQ nilK nilV pick LEGAL g m MOK NN). Qed.
  (** So for values sent to OfMapWriter of the map that is iterated, when the keys stay as they are. *)
  Theorem C116_writer (h : K * V -> K * V) : (forall kv, fst (h kv) = fst kv) -> (forall k v, In (k, v) m -> nilK k || nilV v = false) ->
    exists l s2, (forall fuel, length m < fuel -> each eqb nilK nilV pick (write_to eqb h) fuel (fresh m) = Done (l, s2)) /\
      Permutation l m /\ mok (ents s2) /\ forall k, mget eqb (ents s2) k = option_map (fun v => snd (h (k, v))) (mget eqb m k).
  Proof.
    intros HK NN. destruct (C116_update (fun k v => Some (snd (h (k, v)))) NN) as (l & s2 & E & P & O & G). exists l, s2. split; [|split; [exact P|split; [exact O|]]].
    - intros fuel Hf. rewrite (write_own eqb nilK nilV pick (fun k v => Some (snd (h (k, v)))) h HK (fun _ _ => eq_refl)). apply E. exact Hf.
    - intros k. rewrite G. destruct (mget eqb m k); reflexivity.
  Qed.
  (** Nothing but a nil interface value makes a call panic. *)
  Theorem C116_total es s : runs eqb nilK nilV pick (fresh m) es s -> (forall k v, In (k, v) (after eqb m es) -> nilK k || nilV v = false) ->
    exists r s1, map_live eqb nilK nilV pick s = Done (r, s1).
  Proof.
    intros R NN. destruct (run_inv eqb EQ nilK nilV pick LEGAL es (fresh m) s (inv_fresh eqb m MOK) R) as [I E]. cbn [ents fresh] in E. rewrite <- E in NN.
    apply (step_total eqb EQ nilK nilV pick LEGAL); auto. intros k v G. apply NN. apply (mget_in eqb EQ); auto. exact (proj1 I).
  Qed.
End C116.
Print Assumptions C116_true.
Print Assumptions C116_once.
Print Assumptions C116_complete.
Print Assumptions C116_count.
Print Assumptions C116_update.
Print Assumptions C116_writer.

(** Every order of the entries is possible: for each there are legal choices of the runtime with that order. *)
Theorem C116_any_order {K V} {ZK : Zero K} {ZV : Zero V} (eqb : K -> K -> bool) (nilK : K -> bool) (nilV : V -> bool) (m : list (K * V)) (order : list K) :
  eq_decides eqb -> mok m -> (forall k v, In (k, v) m -> nilK k || nilV v = false) -> Permutation order (map fst m) ->
  exists pick, legal pick /\ exists l s2, each eqb nilK nilV pick (fun s _ => s) (S (length order)) (fresh m) = Done (l, s2) /\ map fst l = order /\ forall kv, In kv l -> In kv m.
Proof. intros EQ O NN P. exists (in_order eqb order). split; [apply in_order_legal; exact EQ|]. apply any_order; assumption. Qed.
Print Assumptions C116_any_order.

(** ** Finding: writes under new keys *)
(** For the loop that writes every value under the next key to the same map, both are possible, from the same map: that it never ends,
    and that it ends after one value. *)
Theorem C116_new_keys_refuted {V} {ZV : Zero V} (v : V) :
  (exists pick, legal pick /\ forall fuel, each (ZK := 0) Nat.eqb (fun _ => false) (fun _ => false) pick (write_to Nat.eqb next_key) fuel (fresh [(0, v)]) = OutOfFuel) /\
  (exists pick, legal pick /\ exists s, (forall fuel, 2 <= fuel -> each (ZK := 0) Nat.eqb (fun _ => false) (fun _ => false) pick (write_to Nat.eqb next_key) fuel (fresh [(0, v)]) = Done ([(0, v)], s)) /\
     ents s = [(0, v); (1, v)]).
Proof.
  split.
  - exists newest. split; [apply newest_legal|]. intros fuel. apply grows_for_ever.
  - exists oldest. split; [apply oldest_legal|]. eexists. split; [intros fuel H; destruct fuel as [|[|fuel]]; [lia|lia|]; reflexivity|reflexivity].
Qed.
Print Assumptions C116_new_keys_refuted.

(** ** Examples *)
(** A run with an update, a deletion and a creation between the calls. *)
Example C116_run : exists s', runs (ZK := 0) (ZV := 0) Nat.eqb (fun _ => false) (fun _ => false) newest (fresh [(1, 10); (2, 20); (3, 30)])
  [ESet 4 40; ENext ((1, 10), None); EDel 2; ESet 3 31; ESet 5 50; ENext ((5, 50), None); ENext ((3, 31), None); ENext ((4, 40), None); ENext ((0, 0), Some EOI); ESet 6 60; ENext ((0, 0), Some EOI)] s'.
Proof. eexists. repeat (econstructor; [reflexivity|] || econstructor). Qed.
Example C116_update_run : exists s2, each (ZK := 0) (ZV := 0) Nat.eqb (fun _ => false) (fun _ => false) newest (update_own Nat.eqb (fun k v => if Nat.even k then None else Some (v + 1))) 10 (fresh [(1, 10); (2, 20); (3, 30)])
  = Done ([(1, 10); (2, 20); (3, 30)], s2) /\ ents s2 = [(1, 11); (3, 31)].
Proof. eexists. split; reflexivity. Qed.
(** delivered twice, removed and created in between *)
Example C116_twice : exists s', runs (ZK := 0) (ZV := 0) Nat.eqb (fun _ => false) (fun _ => false) newest (fresh [(1, 10)])
  [ENext ((1, 10), None); EDel 1; ESet 1 11; ENext ((1, 11), None)] s'.
Proof. eexists. repeat (econstructor; [reflexivity|] || econstructor). Qed.
