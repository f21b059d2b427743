(** C96: a cached supplier shared by goroutines. *)
From Verif Require Import Base Supplier SupplierProofs.
Open Scope nat_scope.

(** nobody is inside the closure *)
Definition quiet {T W} (s : shared T W) : Prop := forall g, pcs s g = Outside.

(** Under every schedule every goroutine calls the supplier at most once, however often it calls the closure: there are at most as
    many calls of the supplier as goroutines. *)
Theorem C96_calls {T W} {ZT : Zero T} (supplier : W -> T * W) schedule w :
  length (supplied (gorun supplier schedule (shared0 w))) <= length (nodup Nat.eq_dec schedule).
Proof. apply calls_bounded. Qed.

(** The bound is met: n goroutines that all start before any of them calls the supplier call it n times. *)
Theorem C96_calls_sharp {T W} {ZT : Zero T} (supplier : W -> T * W) n w : exists schedule,
  length (nodup Nat.eq_dec schedule) = n /\ length (supplied (gorun supplier schedule (shared0 w))) = n.
Proof.
  exists (seq 0 n ++ seq 0 n).
  assert (ND : NoDup (seq 0 n)) by apply seq_NoDup.
  destruct (run_tests supplier (seq 0 n) (shared0 w) ND eq_refl (fun _ _ => eq_refl)) as (A & B & C).
  rewrite run_app. assert (L : length (supplied (gorun supplier (seq 0 n) (gorun supplier (seq 0 n) (shared0 w)))) = n).
  { rewrite run_calls; auto. rewrite B, seq_length. cbn. lia. }
  split; [|exact L].
  apply Nat.le_antisymm.
  - apply (Nat.le_trans _ (length (seq 0 n))); [|rewrite seq_length; apply Nat.le_refl]. apply NoDup_incl_length; [apply NoDup_nodup|]. intros x X. apply nodup_In in X.
    apply in_app_or in X as [|]; auto.
  - pose proof (calls_bounded supplier (seq 0 n ++ seq 0 n) w) as H. rewrite run_app, L in H. exact H.
Qed.

(** Under every schedule every result is one the supplier has returned, or the zero value. *)
Theorem C96_results {T W} {ZT : Zero T} (supplier : W -> T * W) schedule w g v :
  let s := gorun supplier schedule (shared0 w) in In (g, v) (results s) -> v = zv \/ In v (supplied s).
Proof. intros s H. apply (origin_run supplier schedule _ (origin_start w)) in H. exact H. Qed.

(** Once a call has returned while no other is in progress, the supplier is never called again, and all calls from then on return
    the same value, which the supplier has returned. *)
Theorem C96_published {T W} {ZT : Zero T} (supplier : W -> T * W) before after w :
  let s := gorun supplier before (shared0 w) in
  results s <> [] -> quiet s ->
  let s' := gorun supplier (before ++ after) (shared0 w) in
  supplied s' = supplied s /\ sup s' = sup s /\
  exists v new, In v (supplied s) /\ results s' = new ++ results s /\ Forall (fun r => snd r = v) new.
Proof.
  intros s R Q s'. subst s'. rewrite run_app. fold s.
  assert (F : isCached s = true) by (apply (flagged_run supplier before _ (flagged_start w)); exact R).
  assert (S1 : stored_inv s). { apply stored_run; [apply origin_start|]. intros X; discriminate. }
  assert (V : In (cachedVal s) (supplied s)).
  { destruct (S1 F) as [I|(g & v & E)]; [exact I|]. rewrite Q in E. discriminate. }
  destruct (settled_run supplier after (cachedVal s) (supplied s) (sup s) s) as ((A & B & C & D & _) & new & N1 & N2).
  { repeat split; auto. }
  split; [exact C|]. split; [exact D|]. exists (cachedVal s), new. auto.
Qed.

(** So a goroutine that makes one call before the closure is shared makes everything after it behave as documented: one call of
    the supplier, and its value for everybody. *)
Theorem C96_first_call {T W} {ZT : Zero T} (supplier : W -> T * W) g after w :
  let s := gorun supplier ([g; g; g; g; g] ++ after) (shared0 w) in
  supplied s = [fst (supplier w)] /\ sup s = snd (supplier w) /\ Forall (fun r => snd r = fst (supplier w)) (results s) /\
  results (gorun supplier [g; g; g; g; g] (shared0 w)) = [(g, fst (supplier w))].
Proof.
  assert (E : exists f, gorun supplier [g; g; g; g; g] (shared0 w) =
    Shared true (fst (supplier w)) (snd (supplier w)) [fst (supplier w)] [(g, fst (supplier w))] f /\ forall i, f i = Outside).
  { unfold gorun. cbn [fold_left]. unfold gostep at 5. cbn [pcs shared0 isCached cachedVal sup supplied results].
    unfold gostep at 4. cbn [pcs isCached cachedVal sup supplied results]. rewrite goto_same.
    destruct (supplier w) as [v w'] eqn:Ew. cbn [fst snd].
    unfold gostep at 3. cbn [pcs isCached cachedVal sup supplied results]. rewrite goto_same.
    unfold gostep at 2. cbn [pcs isCached cachedVal sup supplied results]. rewrite goto_same.
    unfold gostep at 1. cbn [pcs isCached cachedVal sup supplied results]. rewrite goto_same.
    eexists. split; [reflexivity|]. intros i. unfold goto. destruct (i =? g); reflexivity. }
  destruct E as (f & E & Hf). intros s. subst s. rewrite run_app.
  destruct (settled_run supplier after (fst (supplier w)) [fst (supplier w)] (snd (supplier w))
              (gorun supplier [g; g; g; g; g] (shared0 w))) as ((A & B & C & D & _) & new & N1 & N2).
  { rewrite E. repeat split; auto. }
  split; [exact C|]. split; [exact D|]. rewrite N1, E. cbn [results]. split; [|reflexivity]. apply Forall_app. auto.
Qed.

(** Finding: a concurrent call may return the zero value, which the supplier (always 7) has never returned: isCached is set before
    the value is stored. *)
Theorem C96_finding_zero : exists schedule, let s := gorun (fun w : unit => (7%Z, w)) schedule (shared0 (ZT := 0%Z) tt) in
  quiet s /\ results s = [(0, 7%Z); (1, 0%Z)] /\ supplied s = [7%Z].
Proof.
  exists [0; 0; 0; 1; 1; 0; 0]. split; [intros [|[|g]]; vm_compute; reflexivity|]. split; vm_compute; reflexivity.
Qed.
(** Finding: even the same goroutine may see the value change: it returns one value, and another one later. *)
Theorem C96_finding_changes : exists schedule, let s := gorun (fun w : Z => (w, (w + 1)%Z)) schedule (shared0 (ZT := 0%Z) 5%Z) in
  quiet s /\ results s = [(0, 6%Z); (1, 6%Z); (0, 5%Z)] /\ supplied s = [6; 5]%Z.
Proof.
  exists [0; 1; 0; 1; 0; 0; 0; 1; 1; 1; 0; 0]. split; [intros [|[|g]]; vm_compute; reflexivity|]. split; vm_compute; reflexivity.
Qed.

(** A case that meets the hypotheses of C96_published: three goroutines, of which two overlap. *)
Example C96_witness : let s := gorun (fun w : Z => (w, (w + 1)%Z)) [0; 1; 0; 1; 0; 0; 0; 1; 1; 1; 2; 2] (shared0 (ZT := 0%Z) 5%Z) in
  quiet s /\ results s = [(2, 6%Z); (1, 6%Z); (0, 5%Z)].
Proof. split; [intros [|[|[|g]]]; vm_compute; reflexivity|]. vm_compute; reflexivity. Qed.
