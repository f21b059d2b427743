(** C45, C46, C50: sorted tuple slices and the event registry. *)
From Coq Require Import Permutation Sorting.
From Verif Require Import Base Slice SliceMem SliceMemProofs FuncsFn FuncsSpec FuncsProofs FuncsOrd FuncsOrdSpec FuncsOrdProofs.
Open Scope nat_scope.

(** * C45 *)

(** On every slice sorted by key, for every totally ordered key type: the search returns -1, false for an empty slice;
    the index of the key and true if it is present; otherwise false with the index of the greatest smaller key, or 0 if
    all keys are greater. *)
Theorem C45_search {K V} (o : gord K) (mp : list (K * V)) key : ord_laws o -> ksorted o mp ->
  (mp = [] -> ord_search o mp key = Done ((-1)%Z, false)) /\
  (forall i v, nth_error mp i = Some (key, v) -> ord_search o mp key = Done (Z.of_nat i, true)) /\
  (mp <> [] -> ~ In key (map fst mp) -> exists i, i < length mp /\ ord_search o mp key = Done (Z.of_nat i, false) /\
     (forall j e, nth_error mp j = Some e -> i < j -> key_lt o key (fst e)) /\
     (i = 0 /\ (forall e, In e mp -> key_lt o key (fst e)) \/
      (forall j e, nth_error mp j = Some e -> j <= i -> key_lt o (fst e) key))).
Proof.
  intros OL SO. split; [intros ->; reflexivity|].
  assert (LE : mp <> [] -> exists i e, ord_search o mp key = Done (Z.of_nat i, oeq o key (fst e)) /\ nth_error mp i = Some e /\
      (i = 0 \/ olt o key (fst e) = false) /\ (forall j e', i < j -> nth_error mp j = Some e' -> olt o key (fst e') = true)).
  { intros N. apply ord_search_sorted; auto. }
  split.
  - intros i v N. destruct LE as (i' & e & Es & N' & Hl & Hr); [intros ->; destruct i; discriminate|]. rewrite Es.
    destruct (Nat.lt_trichotomy i i') as [L|[->|L]].
    + exfalso. pose proof (ksorted_nth o mp i i' _ _ SO L N N') as Q. unfold key_lt in Q. cbn [fst] in Q.
      destruct Hl as [->|Hl]; [lia|]. congruence.
    + assert (e = (key, v)) by congruence. subst e. cbn [fst]. f_equal. f_equal. apply (ol_eq o OL); auto.
    + exfalso. pose proof (Hr i _ L N) as Q. cbn [fst] in Q. rewrite (ol_irr o OL) in Q. discriminate.
  - intros NE NI. destruct (LE NE) as (i & e & Es & N & Hl & Hr). exists i.
    assert (Q : oeq o key (fst e) = false).
    { destruct (oeq o key (fst e)) eqn:Q; auto. exfalso. apply (ol_eq o OL) in Q. apply NI. rewrite Q. apply in_map. eapply nth_error_In; eauto. }
    rewrite Q in Es. split; [apply nth_error_Some; congruence|]. split; [auto|]. split; [intros j e' Nj L; eapply Hr; eauto|].
    destruct (olt o key (fst e)) eqn:LT.
    + destruct Hl as [->|]; [|congruence]. left. split; auto. intros x I. apply In_nth_error in I as (j & J).
      destruct j; [unfold key_lt; congruence|]. eapply (Hr (S j)); eauto. lia.
    + right. assert (LTE : key_lt o (fst e) key).
      { destruct (ol_total o OL (fst e) key) as [|[E|]]; auto; [|congruence]. rewrite E in Q.
        assert (oeq o key key = true) by (apply (ol_eq o OL); auto). congruence. }
      intros j e' Nj L. destruct (Nat.eq_dec j i) as [->|]; [congruence|].
      unfold key_lt in *. eapply (ol_trans o OL); [|exact LTE]. apply (ksorted_nth o mp j i e' e SO); auto. lia.
Qed.

(** On any slice at all, sorted or not, with any comparison operators (floats with NaN included): it terminates without
    a panic and answers with a valid index, and true only when the key there equals the argument. *)
Theorem C45_total {K V} (o : gord K) (mp : list (K * V)) key :
  mp = [] /\ ord_search o mp key = Done ((-1)%Z, false) \/
  exists i e, ord_search o mp key = Done (Z.of_nat i, oeq o key (fst e)) /\ nth_error mp i = Some e.
Proof.
  destruct (ord_search_total o mp key) as [H|(i & e & A & B & C)]; [left; auto|right; exists i, e; auto].
Qed.

Theorem C45_int_keys : ord_laws ord_int. Proof. exact ord_int_laws. Qed.
Theorem C45_string_keys : ord_laws ord_string. Proof. exact ord_string_laws. Qed.
Example C45_ex : ksorted ord_int [(1, tt); (2, tt); (5, tt); (6, tt)]%Z /\
  ord_search ord_int [(1, tt); (2, tt); (5, tt); (6, tt)]%Z 3%Z = Done (1%Z, false) /\
  ord_search ord_int [(1, tt); (2, tt); (5, tt); (6, tt)]%Z 6%Z = Done (3%Z, true).
Proof. split; [|split; reflexivity]. repeat constructor. Qed.

(** * C46 *)

(** Every history of insertions (none below the keys present), key removals and value removals, starting from a nil
    slice, runs without a panic for every runtime growth policy; the slice stays sorted with unique keys and holds
    exactly the multimap the history denotes. *)
Theorem C46_history {K V} (o : gord K) (same : V -> V -> bool) ex {ZT : Zero (K * list V)} (ops : list (ordop K V)) :
  ord_laws o -> no_new_minimum o same (fun _ => None) ops ->
  exists m s, run_ordops o same ex ([], None) ops = Done (m, s) /\ ksorted o (contents m s) /\
    forall k vs, In (k, vs) (contents m s) <-> fold_left (spec_ordop o same) ops (fun _ => None) k = Some vs.
Proof.
  intros OL H. destruct (run_ordops_spec o OL ex same ops [] None (fun _ => None)) as (m & s & E & (V' & SO & L)); auto.
  { split; [exact Logic.I|]. split; [constructor|auto]. }
  exists m, s. split; auto. split; auto. intros k vs. rewrite <- L. split.
  - intros I. apply In_nth_error in I as (i & N). rewrite (lookup_around o OL _ i (k, vs) k SO N). cbn [fst snd].
    rewrite (proj2 (ol_eq o OL k k) eq_refl). reflexivity.
  - apply (lookup_in o OL).
Qed.

(** Every insertion, new minimum or not, into any slice, sorted or not, adds exactly the one (key, value) pair. *)
Theorem C46_add_pairs {K V} (o : gord K) ex {ZT : Zero (K * list V)} (m : mem (K * list V)) s k v : ord_laws o -> valid m s ->
  exists m' s', ord_add o ex m s k v = Done (m', s') /\ valid m' s' /\
    Permutation (pairs (contents m' s')) ((k, v) :: pairs (contents m s)).
Proof. intros OL. apply ord_add_pairs; auto. Qed.

(** Finding: inserting a new minimum puts it second, after which a key that is present is not found, and inserting it
    again makes a second entry for it. *)
Definition C46_bad := @run_ordops Z Z ord_int Z.eqb (fun _ _ => 0) _ ([], None).
Theorem C46_finding_minimum :
  (exists m s, C46_bad [OAdd 5 50; OAdd 3 30]%Z = Done (m, s) /\ contents m s = [(5, [50]); (3, [30])]%Z /\
     ord_search ord_int (contents m s) 5%Z = Done (1%Z, false)) /\
  (exists m s, C46_bad [OAdd 5 50; OAdd 3 30; OAdd 5 51]%Z = Done (m, s) /\ contents m s = [(5, [50]); (3, [30]); (5, [51])]%Z).
Proof. split; do 2 eexists; (split; [vm_compute; reflexivity|]); [split; vm_compute; reflexivity|vm_compute; reflexivity]. Qed.

(** Finding: OrderedTuple2SliceRemoveKey shifts the elements in place: a copy of the slice header taken before sees the
    last key twice. *)
Theorem C46_finding_alias : let m := [[(1, [10]); (2, [20]); (3, [30])]%Z] in let s := Some (Hdr 0 0 3 3) in
  exists m' s', ord_remove_key ord_int (fun _ _ => 0) m s 1%Z = Done (m', s') /\
    contents m' s' = [(2, [20]); (3, [30])]%Z /\ contents m' s = [(2, [20]); (3, [30]); (3, [30])]%Z.
Proof. do 2 eexists. split; [vm_compute; reflexivity|]. split; vm_compute; reflexivity. Qed.

Example C46_ex : no_new_minimum ord_int Z.eqb (fun _ => None) [OAdd 5 50; OAdd 7 70; OAdd 6 60; OAdd 7 71; ORemoveValue 7 70 false; ORemoveKey 5; OAdd 6 61]%Z /\
  exists m s, C46_bad [OAdd 5 50; OAdd 7 70; OAdd 6 60; OAdd 7 71; ORemoveValue 7 70 false; ORemoveKey 5; OAdd 6 61]%Z = Done (m, s) /\
    contents m s = [(6, [60; 61]); (7, [71])]%Z.
Proof.
  split; [|do 2 eexists; split; vm_compute; reflexivity]. cbn [no_new_minimum]. repeat split; auto.
  all: right.
  - exists 5%Z. split; [vm_compute; discriminate|right; vm_compute; reflexivity].
  - exists 5%Z. split; [vm_compute; discriminate|right; vm_compute; reflexivity].
  - exists 7%Z. split; [vm_compute; discriminate|left; reflexivity].
  - exists 6%Z. split; [vm_compute; discriminate|left; reflexivity].
Qed.

(** * C50 *)
Section C50.
  Context {I R T W : Type} (o : gord I) (addr : R -> Z) (process : R -> T -> W -> T * W) (ex : nat -> nat -> nat).
  Context {ZT : Zero (I * list R)}.

  Lemma send_rcvrs_through rs : forall (val : T) (w : W), send_rcvrs process rs val w = through process rs val w.
  Proof.
    induction rs as [|r rs IH]; intros val w; simpl; auto. unfold through. cbn [fold_left fst snd].
    destruct (process r val w) as [v' w']. apply IH.
  Qed.
  Lemma through_app a b (val : T) (w : W) : through process (a ++ b) val w = let (v', w') := through process a val w in through process b v' w'.
  Proof. unfold through. rewrite fold_left_app. destruct (fold_left _ a (val, w)); reflexivity. Qed.
  Lemma send_ids_through (ids : list (I * list R)) : forall (val : T) (w : W),
    send_ids process ids val w = through process (flat_map snd ids) val w.
  Proof.
    induction ids as [|e ids IH]; intros val w; simpl; auto. rewrite through_app, send_rcvrs_through.
    destruct (through process (snd e) val w). apply IH.
  Qed.

  (** A registry's history is that of the tuple slice inside it. *)
  Lemma run_evops_ord ops : forall (r : registry I R),
    run_evops o addr ex r ops = obind (run_ordops o (fun a b => Z.eqb (addr a) (addr b)) ex (rmem r, receivers r) ops) (fun st => Done (Reg (fst st) (snd st))).
  Proof.
    induction ops as [|op ops IH]; intros r; cbn [run_evops run_ordops obind fst snd]; [destruct r; reflexivity|].
    destruct op as [k v|k|k v all]; cbn [run_evop run_ordop fst snd]; unfold ev_register, ev_remove_id, ev_remove.
    - destruct (ord_add o ex (rmem r) (receivers r) k v) as [[m s]| |]; cbn [obind]; auto. apply IH.
    - destruct (ord_remove_key o ex (rmem r) (receivers r) k) as [[m s]| |]; cbn [obind]; auto. apply IH.
    - destruct (ord_remove_value o (fun x => Z.eqb (addr x) (addr v)) (rmem r) (receivers r) k all) as [[m s]| |]; cbn [obind]; auto. apply IH.
  Qed.

  (** Any history of Register (ids not below those present), RemoveId and Remove: Send passes the value through the
      receivers present, each exactly once and each given the previous one's result, in ascending order of id and, for
      one id, in registration order. *)
  Theorem C50_send (ops : list (ordop I R)) : ord_laws o ->
    let same := fun a b => Z.eqb (addr a) (addr b) in
    let f := fold_left (spec_ordop o same) ops (fun _ => None) in
    no_new_minimum o same (fun _ => None) ops ->
    exists reg ids, run_evops o addr ex registry0 ops = Done reg /\
      StronglySorted (key_lt o) ids /\ (forall id, In id ids <-> f id <> None) /\
      forall val w, ev_send process reg val w =
        through process (flat_map (fun id => match f id with Some rs => rs | None => [] end) ids) val w.
  Proof.
    intros OL same f H. destruct (run_ordops_spec o OL ex same ops [] None (fun _ => None)) as (m & s & E & (V' & SO & L)); auto.
    { split; [exact Logic.I|]. split; [constructor|auto]. }
    exists (Reg m s), (map fst (contents m s)). split; [rewrite run_evops_ord; unfold registry0; cbn [rmem receivers]; fold same; rewrite E; reflexivity|].
    split; [exact SO|]. fold f in L. split.
    - intros id. rewrite <- L. rewrite (lookup_none o OL). split; [tauto|]. intros N.
      destruct (lookup o (contents m s) id) as [x|] eqn:Q; [|apply (lookup_none o OL) in Q; tauto].
      apply (lookup_in o OL) in Q. apply (in_map fst) in Q. exact Q.
    - intros val w. unfold ev_send. cbn [rmem receivers]. rewrite send_ids_through. f_equal.
      assert (AUX : forall l, (forall e, In e l -> f (fst e) = Some (snd e)) ->
        flat_map snd l = flat_map (fun id => match f id with Some rs => rs | None => [] end) (map fst l)).
      { induction l as [|e l IH]; intros Hl; simpl; auto. rewrite (Hl e) by (simpl; auto). f_equal. apply IH. intros; apply Hl; simpl; auto. }
      apply AUX. intros e In_e. rewrite <- L. apply In_nth_error in In_e as (i & N).
      rewrite (lookup_around o OL _ i e (fst e) SO N). rewrite (proj2 (ol_eq o OL _ _) eq_refl). reflexivity.
  Qed.

  (** Whatever the order of registration, Register adds exactly one delivery and loses none. *)
  Theorem C50_register_all (reg : registry I R) id r : ord_laws o -> valid (rmem reg) (receivers reg) ->
    exists reg', ev_register o ex reg id r = Done reg' /\ valid (rmem reg') (receivers reg') /\
      Permutation (flat_map snd (contents (rmem reg') (receivers reg'))) (r :: flat_map snd (contents (rmem reg) (receivers reg))) /\
      forall val w, ev_send process reg' val w = through process (flat_map snd (contents (rmem reg') (receivers reg'))) val w.
  Proof.
    intros OL V. destruct (ord_add_pairs o OL ex (rmem reg) (receivers reg) id r V) as (m' & s' & E & V' & P).
    exists (Reg m' s'). unfold ev_register. rewrite E. cbn [obind rmem receivers]. split; auto. split; auto. split.
    - assert (SP : forall l : list (I * list R), flat_map snd l = map snd (pairs l)).
      { induction l as [|e l IH]; simpl; auto. rewrite map_app, IH, map_map. simpl. rewrite map_id. reflexivity. }
      rewrite !SP. apply (Permutation_map snd) in P. exact P.
    - intros val w. apply send_ids_through.
  Qed.
End C50.

(** Finding: a smaller id registered later is served after the first id. *)
Definition C50_proc (r : Z) (t : list Z) (w : unit) : list Z * unit := (t ++ [r], w).
Theorem C50_finding_order : exists reg, run_evops ord_int (fun x => x) (fun _ _ => 0) registry0 [OAdd 5 50; OAdd 3 30]%Z = Done reg /\
  fst (ev_send C50_proc reg [] tt) = [50; 30]%Z.
Proof. eexists. split; vm_compute; reflexivity. Qed.
(** Finding: two closures made by the same function literal have the same code address, so Remove of the second one
    removes the first (here receivers are numbers, tens are the literal, units the captured state). *)
Theorem C50_finding_closures : exists reg, run_evops ord_int (fun x => (x / 10)%Z) (fun _ _ => 0) registry0
    [OAdd 1 11; OAdd 1 12; ORemoveValue 1 12 false]%Z = Done reg /\
  fst (ev_send C50_proc reg [] tt) = [12]%Z.
Proof. eexists. split; vm_compute; reflexivity. Qed.
Example C50_ex : exists reg, run_evops ord_int (fun x => x) (fun _ _ => 2) registry0
    [OAdd 1 11; OAdd 3 31; OAdd 2 21; OAdd 1 12; ORemoveValue 1 11 false]%Z = Done reg /\
  fst (ev_send C50_proc reg [] tt) = [12; 21; 31]%Z.
Proof. eexists. split; vm_compute; reflexivity. Qed.
