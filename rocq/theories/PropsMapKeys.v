(** C121: maps with float keys. *)
From Coq Require Import Permutation.
From Verif Require Import Base IterSpec Iter IterGen IterGenProofs SliceMem SliceMemProofs GoMap Funcs Stream StreamProofs StreamProofs2 Float MathFloat MathFloatProofs StreamFloatProofs
  MapKeys MapKeysSpec MapKeysProofs.
Open Scope nat_scope.

(** == on floats: symmetric and transitive; all but NaN are equal to themselves. The same for complex numbers, structs and arrays made of
    them: they are equal to themselves if their parts are. *)
Theorem C121_float_keys : per feqb /\ forall x, ordinary feqb x = negb (is_nan x).
Proof. split; [exact feqb_per|]. intros x. unfold ordinary. pose proof (odd_nan [x]) as O. cbn [filter] in O. destruct (feqb x x), (is_nan x); cbn in *; auto; discriminate. Qed.
Print Assumptions C121_float_keys.
Theorem C121_pair_keys {A B} (ea : A -> A -> bool) (eb : B -> B -> bool) : per ea -> per eb ->
  per (pair_eqb ea eb) /\ forall a b, ordinary (pair_eqb ea eb) (a, b) = ordinary ea a && ordinary eb b.
Proof.
  intros (S1 & T1) (S2 & T2). split; [split|reflexivity].
  - intros [a b] [c d] H. apply andb_prop in H as (X & Y). apply andb_true_intro. auto.
  - intros [a b] [c d] [g h] H1 H2. apply andb_prop in H1 as (X & Y). apply andb_prop in H2 as (X' & Y'). apply andb_true_intro. cbn in *. eauto.
Qed.
Print Assumptions C121_pair_keys.

Section Keys.
  Context {K V : Type} {ZV : Zero V} (eqb : K -> K -> bool) (P : per eqb).

  Lemma perform_entries (ops : list (mapop K V)) : gmap_entries (perform eqb ops) = fold_left (after eqb) ops [].
  Proof.
    unfold perform. induction ops as [|o ops IH] using rev_ind; [reflexivity|]. rewrite !fold_left_app. cbn [fold_left]. rewrite <- IH.
    destruct o as [k v|k]; cbn [after]; destruct (fold_left (perform_op eqb) ops None); reflexivity.
  Qed.
  (** After any history of MapSet and MapUnset: *)
  Theorem C121_entries (ops : list (mapop K V)) : entries_after eqb ops (gmap_entries (perform eqb ops)).
  Proof. rewrite perform_entries. apply good_entries; [exact P|]. apply good_run, P. Qed.
  (** what MapTest and MapIndex answer; never anything for a key not equal to itself; *)
  Theorem C121_reads (ops : list (mapop K V)) k d : map_test eqb (perform eqb ops) k = match latest eqb ops k with Some _ => true | None => false end /\
    map_index eqb (perform eqb ops) k d = match latest eqb ops k with Some v => v | None => match d with x :: _ => x | [] => zv end end.
  Proof.
    pose proof (good_run eqb P ops) as (G & _). rewrite <- perform_entries in G. unfold map_test, map_index. rewrite <- G.
    destruct (perform eqb ops) as [e|]; [|split; reflexivity]. cbn [gmap_entries]. destruct (mget eqb e k); split; reflexivity.
  Qed.
  Theorem C121_odd_unreadable (ops : list (mapop K V)) k : ordinary eqb k = false -> latest eqb ops k = None.
  Proof. intros O. pose proof (good_run eqb P ops) as (G & _). rewrite <- G. apply get_odd; auto. Qed.
  (** each MapSet with such a key makes the map longer by one, and MapUnset never makes it shorter. *)
  Theorem C121_odd_grows (ops : list (mapop K V)) k (v : V) : ordinary eqb k = false ->
    length (gmap_entries (perform eqb (ops ++ [Put k v]))) = S (length (gmap_entries (perform eqb ops))) /\
    gmap_entries (perform eqb (ops ++ [Del k])) = gmap_entries (perform eqb ops).
  Proof.
    intros O. rewrite !perform_entries, !fold_left_app. cbn [fold_left after]. rewrite put_odd, del_odd by auto. rewrite app_length. cbn. split; [lia|reflexivity].
  Qed.
  (** so the number of its entries is the number of times such keys were put, and of the different other keys that are there. *)
  Theorem C121_length (ops : list (mapop K V)) : exists keys, ForallOrdPairs (fun a b => eqb a b = false) keys /\
    (forall k, (exists v, latest eqb ops k = Some v) <-> existsb (eqb k) keys = true) /\
    length (gmap_entries (perform eqb ops)) = length (odd_puts eqb ops) + length keys.
  Proof.
    pose proof (good_run eqb P ops) as (G & A & O & _). rewrite <- perform_entries in *. set (m := gmap_entries (perform eqb ops)) in *.
    exists (map fst (filter (fun e => ordinary eqb (fst e)) m)). split; [|split].
    - clear -A. induction A as [|[a b] m F N IH]; cbn [filter map]; [constructor|]. destruct (ordinary eqb _); cbn [map]; [|exact IH]. constructor; [|exact IH].
      apply Forall_forall. intros x I. apply in_map_iff in I as ((x' & y) & <- & I). apply filter_In in I as (I & _). rewrite Forall_forall in F. exact (F _ I).
    - intros k. rewrite existsb_exists. split.
      + intros (v & L). rewrite <- G in L. apply get_in in L as (k' & E & I). exists k'. split; [|exact E]. apply in_map_iff. exists (k', v). split; [reflexivity|].
        apply filter_In. split; [exact I|]. cbn [fst]. apply (eqb_ord eqb P k' k). rewrite (eqb_sym eqb P). exact E.
      + intros (k' & I & E). apply in_map_iff in I as ((x & v) & <- & I). apply filter_In in I as (I & _). rewrite <- G. cbn [fst] in E.
        destruct (mget eqb m k) eqn:N; [eauto|]. rewrite (get_none_in eqb m k x v N I) in E. discriminate.
    - rewrite map_length, <- O. clear. induction m as [|e m IH]; [reflexivity|]. cbn [filter]. destruct (ordinary eqb (fst e)); cbn; lia.
  Qed.

  (** SliceToMap(By) and SliceUniqueValues: values equal to each other are one key; each of the others is a key of its own. *)
  Theorem C121_slice_to_map {T} (fn : T -> K) slc : entries_after eqb (map (fun v => Put (fn v) true) slc) (slice_to_map_by eqb fn slc []).
  Proof. rewrite slice_to_map_puts. apply good_entries; [exact P|]. apply good_run, P. Qed.
  Theorem C121_unique slc order : Permutation (uniq_loop eqb slc []) order -> let uniq := map_keys_to_slice order in
    (forall x, In x uniq -> In x slc) /\ ForallOrdPairs (fun a b => eqb a b = false) uniq /\
    (forall x, In x slc -> ordinary eqb x = true -> existsb (eqb x) uniq = true) /\
    Permutation (filter (fun x => negb (ordinary eqb x)) uniq) (filter (fun x => negb (ordinary eqb x)) slc).
  Proof.
    intros Po. rewrite uniq_puts in Po. cbv zeta. unfold map_keys_to_slice.
    pose proof (good_entries eqb P _ _ (good_run eqb P (map (fun v => Put v 0) slc))) as (A & B & C & D).
    set (m := fold_left _ _ _) in *. split; [|split; [|split]].
    - intros x I. apply in_map_iff in I as ((x' & y) & <- & I). symmetry in Po. pose proof (Permutation_in _ Po I) as J.
      destruct (proj1 (A _ _ J)) as (v' & H). apply in_map_iff in H as (z & E & Hz). cbn [fst]. congruence.
    - apply pairs_fst. refine (pairs_perm _ _ _ _ Po C). intros a b. rewrite (eqb_sym eqb P). auto.
    - intros x I O. destruct (B x 0) as (k' & E & J). { apply latest_in. exists x. split; [exact I|exact O]. }
      apply existsb_exists. exists k'. split; [|exact E]. apply in_map_iff. exists (k', 0). split; [reflexivity|]. exact (Permutation_in _ Po J).
    - rewrite filter_fst. rewrite <- odd_puts_map with (v := 0). apply Permutation_map. etransitivity; [|exact D]. apply filter_perm. symmetry. exact Po.
  Qed.

  (** ReduceToMap; ExpandMaps of the result gives the entries in some order. *)
  Theorem C121_reduce_to_map {S0} {ZK : Zero K} (nx : stepfn S0 (K * V)) s l : yields nx s l EOI ->
    exists m, yields (next (st_to_map eqb nx)) (ofIter (false, s)) [m] EOI /\ entries_after eqb (map (fun kv => Put (fst kv) (snd kv)) l) m.
  Proof.
    intros Y. eexists. split; [apply to_map_yields_any, Y|]. rewrite fold_puts. apply good_entries; [exact P|]. apply good_run, P.
  Qed.

  (** MapSliceAdd with a key not equal to itself (finding): two entries more, one with an empty slice and one with the value alone, which
      no look-up finds; everything else as before. MapSliceRemove with such a key does nothing. *)
  Theorem C121_map_slice_add ex (s : sts K V) key value : ordinary eqb key = false ->
    Forall (fun e => valid (mems s) (snd e)) (gmap_entries (tops s)) ->
    let s' := map_slice_add eqb ex s key value in
    exists s1 s2, gmap_entries (tops s') = gmap_entries (tops s) ++ [(key, s1); (key, s2)] /\
      contents (mems s') s1 = [] /\ contents (mems s') s2 = [value] /\
      (forall e, In e (gmap_entries (tops s)) -> contents (mems s') (snd e) = contents (mems s) (snd e)) /\
      forall k, map_slice_read eqb s' k = map_slice_read eqb s k.
  Proof. apply slice_add_odd, P. Qed.
  Theorem C121_map_slice_remove ex (same : V -> bool) (s : sts K V) key all : ordinary eqb key = false ->
    map_slice_read eqb s key = None /\ map_slice_remove eqb ex same s key all = Done s.
  Proof.
    intros O. unfold map_slice_read, map_slice_remove. rewrite get_odd by auto. split; [reflexivity|]. destruct (tops s) as [e|]; [|reflexivity]. rewrite get_odd; auto.
  Qed.
End Keys.
Print Assumptions C121_entries. Print Assumptions C121_reads. Print Assumptions C121_odd_unreadable. Print Assumptions C121_odd_grows. Print Assumptions C121_length.
Print Assumptions C121_slice_to_map. Print Assumptions C121_unique. Print Assumptions C121_reduce_to_map. Print Assumptions C121_map_slice_add.
Print Assumptions C121_map_slice_remove.

Section Keys2.
  Context {K1 K2 V : Type} {ZV : Zero V} (eqb1 : K1 -> K1 -> bool) (eqb2 : K2 -> K2 -> bool) (P1 : per eqb1) (P2 : per eqb2).
  (** Map2Set with a first key not equal to itself (finding): the value is stored in a second map that no look-up finds; Map2Test says
      false, everything else reads as before. *)
  Theorem C121_map2_set (s : st2 K1 K2 V) key1 key2 value : ordinary eqb1 key1 = false ->
    Forall (fun e => match snd e with Some r => r < length (heap2 s) | None => True end) (gmap_entries (top2 s)) ->
    let s' := map2_set eqb1 eqb2 s key1 key2 value in
    gmap_entries (top2 s') = gmap_entries (top2 s) ++ [(key1, Some (length (heap2 s)))] /\ nth (length (heap2 s)) (heap2 s') [] = [(key2, value)] /\
    (forall k, map2_test eqb1 eqb2 s' key1 k = false) /\
    forall k k', map2_read eqb1 eqb2 s' k k' = map2_read eqb1 eqb2 s k k'.
  Proof. apply map2_odd1, P1. Qed.
  (** A key pair of which one is not equal to itself is never there; Map2Unset with such a first key does nothing. *)
  Theorem C121_map2_test (s : st2 K1 K2 V) key1 key2 : ordinary eqb1 key1 && ordinary eqb2 key2 = false ->
    map2_test eqb1 eqb2 s key1 key2 = false /\ map2_read eqb1 eqb2 s key1 key2 = None /\ (ordinary eqb1 key1 = false -> map2_unset eqb1 eqb2 s key1 key2 = s).
  Proof.
    intros O. unfold map2_test, map2_read, map2_unset. destruct (ordinary eqb1 key1) eqn:O1; cbn [andb] in O.
    - split; [|split; [|discriminate]]; (destruct (inner_ref eqb1 s key1); [|reflexivity]; rewrite get_odd; auto).
    - assert (X : inner_ref eqb1 s key1 = None). { unfold inner_ref. destruct (top2 s) as [e|]; [|reflexivity]. rewrite get_odd; auto. }
      rewrite X. auto.
  Qed.
  (** Map2SliceAdd looks up the first key again and again: with one equal to itself, that is what looking it up once would do (C44); *)
  Theorem C121_map2_slice_add ex (s : st3 K1 K2 V) key1 key2 value : ordinary eqb1 key1 = true ->
    map2_slice_add_lookups eqb1 eqb2 ex s key1 key2 value = Done (map2_slice_add eqb1 eqb2 ex s key1 key2 value).
  Proof. apply lookups_ordinary, P1. Qed.
  (** with any other (finding) it panics: assignment to an entry in a nil map. *)
  Theorem C121_map2_slice_add_panics ex (s : st3 K1 K2 V) key1 key2 value : ordinary eqb1 key1 = false ->
    map2_slice_add_lookups eqb1 eqb2 ex s key1 key2 value = Panicked.
  Proof. apply lookups_odd, P1. Qed.
End Keys2.
Print Assumptions C121_map2_set. Print Assumptions C121_map2_test. Print Assumptions C121_map2_slice_add. Print Assumptions C121_map2_slice_add_panics.

(** NaN, 0 and -0 *)
Example C121_nonvacuous :
  let ops := [Put NaN 1; Put (Fin true 0 0) 2; Put NaN 3; Put (Fin false 0 0) 4; Del NaN; Put (Fin false 1 0) 5; Del (Fin false 2 (-1))] in
  gmap_entries (perform feqb ops) = [(NaN, 1); (Fin true 0 0, 4); (NaN, 3)] /\ map_test feqb (perform feqb ops) NaN = false /\
  map_index feqb (ZV := 0) (perform feqb ops) (Fin true 0 0) [] = 4 /\ latest feqb ops (Fin false 1 0) = None /\ odd_puts feqb ops = [(NaN, 1); (NaN, 3)] /\
  uniq_loop feqb [NaN; Fin true 0 0; NaN; Fin false 0 0] [] = [(NaN, 0); (Fin true 0 0, 0); (NaN, 0)] /\
  map2_slice_add_lookups (ZV := 0) feqb Nat.eqb (fun _ _ => 0) (St3 [] [] None) NaN 1 7 = Panicked /\
  exists s, map2_slice_add_lookups (ZV := 0) feqb Nat.eqb (fun _ _ => 0) (St3 [] [] None) (Fin false 1 0) 1 7 = Done s /\ map2_slice_read feqb Nat.eqb s (Fin false 2 (-1)) 1 = Some [7].
Proof. repeat split. eexists. split; reflexivity. Qed.
