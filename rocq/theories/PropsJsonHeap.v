(** C113: which JSON Values, maps and slices share memory. *)
From Verif Require Import Base GoMap SliceMem SliceMemProofs Slice Decimal Union Rest Json JsonSpec JsonHeap JsonHeapSpec JsonHeapProofs JsonHeapProofs2 JsonHeapProofs3.
From Coq Require Import ZifyBool.
Open Scope go_scope.
Open Scope nat_scope.

(** toValue (ToValue, MapToValue of a map[string]any, SliceToValue of a []any) in memory does what it does without (C59), changes
    nothing that was there, and the Value it returns uses only memory that was not there before. *)
Theorem C113_to_value h a g t : shows_any h a g -> toValue g = Done (t, None) ->
  exists v h', settles (fun f => to_value f h a) (v, None, h') /\ kept h h' /\ shows h' v t /\
    forall p, uses h' v p -> allocated h' p /\ ~ allocated h p.
Proof.
  intros R E. pose proof (proj1 (value_loops h) a g R h (kept_refl h)) as M. rewrite E in M. destruct M as (v & h2 & n & M & K & S & _). destruct (S eq_refl) as [S1 S2].
  exists v, h2. split; [exists n; exact M|]. auto.
Qed.
Print Assumptions C113_to_value.
Theorem C113_to_value_error h a g t e : shows_any h a g -> toValue g = Done (t, Some e) ->
  exists h', settles (fun f => to_value f h a) (HInvalid, Some e, h') /\ kept h h'.
Proof.
  intros R E. pose proof (proj1 (value_loops h) a g R h (kept_refl h)) as M. rewrite E in M. destruct M as (v & h2 & n & M & K & _ & V). rewrite V in M by discriminate.
  exists h2. split; [exists n; exact M|]. auto.
Qed.
Theorem C113_to_value_panic h a g : shows_any h a g -> toValue g = Panicked -> exists n, forall f, n <= f -> to_value f h a = Panicked.
Proof. intros R E. pose proof (proj1 (value_loops h) a g R h (kept_refl h)) as M. rewrite E in M. exact M. Qed.
(** So whatever is done afterwards to the maps and slices it was made from, or to any other memory, the Value stays what it is. *)
Theorem C113_value_independent h a g t : shows_any h a g -> toValue g = Done (t, None) ->
  exists v h', settles (fun f => to_value f h a) (v, None, h') /\ shows_any h' a g /\ shows h' v t /\
    forall h2, (forall p, ~ allocated h p -> same_at h' h2 p) -> shows h2 v t.
Proof.
  intros R E. destruct (C113_to_value h a g t R E) as (v & h' & S & K & SV & U). exists v, h'. split; [exact S|]. split; [apply (proj1 (shows_any_kept h h' K)); exact R|]. split; [exact SV|].
  intros h2 B. apply (proj1 (shows_same h' h2)); auto. intros p X. apply B. apply (U p X).
Qed.
Print Assumptions C113_value_independent.

(** ToAny, ToMap and ToSlice make copies: what they return uses only new memory, so changing it leaves the Value, and changing what
    the Value uses leaves it; for every growth of slices. *)
Theorem C113_to_any ex h v t : shows h v t -> exists g a h', toAny t = Done g /\ settles (fun f => to_any ex f h v) (a, h') /\ kept h h' /\ shows_any h' a g /\
  (forall p, uses_any h' a p -> allocated h' p /\ ~ allocated h p) /\
  (forall h2, (forall p, ~ allocated h p -> same_at h' h2 p) -> shows_any h2 a g) /\
  (forall h2, (forall p, allocated h p -> same_at h' h2 p) -> shows h2 v t).
Proof.
  intros R. destruct (proj1 (any_loops ex h) v t R h (kept_refl h)) as (g & a & h2 & n & E & M & K & SA & U). exists g, a, h2. split; [exact E|]. split; [exists n; exact M|]. split; [exact K|]. split; [exact SA|].
  split; [exact U|]. split.
  - intros h3 B. apply (proj1 (shows_any_same h2 h3)); auto. intros p X. apply B. apply (U p X).
  - intros h3 B. apply (proj1 (shows_same h2 h3)); [eapply shows_kept; eauto|]. intros p X. apply B. apply (proj1 (shows_allocated h) v t R). eapply uses_same; [exact X|].
    intros q Q. apply K. apply (proj1 (shows_allocated h) v t R q Q).
Qed.
Print Assumptions C113_to_any.

(** ToMap and ToSlice are ToAny on objects and on arrays, and panic on anything else. *)
Theorem C113_to_map_slice ex h v t : shows h v t ->
  (typ_of t = TObject -> exists g a h', toMap t = Done g /\ settles (fun f => to_map ex f h v) (a, h') /\ settles (fun f => to_any ex f h v) (a, h') /\ shows_any h' a g) /\
  (typ_of t <> TObject -> toMap t = Panicked /\ forall f, to_map ex f h v = Panicked) /\
  (typ_of t = TArray -> exists g a h', toSlice t = Done g /\ settles (fun f => to_slice ex f h v) (a, h') /\ settles (fun f => to_any ex f h v) (a, h') /\ shows_any h' a g) /\
  (typ_of t <> TArray -> toSlice t = Panicked /\ forall f, to_slice ex f h v = Panicked).
Proof.
  intros R. destruct (C113_to_any ex h v t R) as (g & a & h' & E & S & _ & A & _). unfold toMap, toSlice, to_map, to_slice.
  inversion R; subst; try match goal with b : bool |- _ => destruct b end; refine (conj _ (conj _ (conj _ _))); intros X;
    first [exfalso; apply X; reflexivity | exfalso; unfold boolToValue, stringToValue, number_of_str, invalidValue, nullValue in X; cbn in X; discriminate X
      | exists g, a, h'; split; [exact E|split; [exact S|split; [exact S|exact A]]] | split; reflexivity].
Qed.
Print Assumptions C113_to_map_slice.

(** Finding: MapToValue of a map[string]Value and SliceToValue of a []Value keep the caller's map and slice, and AsMap and AsSlice
    hand them out again: storing into the map, or into the slice, changes the Value. *)
Theorem C113_map_shared_refuted h a m m' k x t : nth_error (maps_v h) a = Some m -> shows_m h m m' -> shows h x t ->
  (forall k0 y, In (k0, y) ((k, x) :: m) -> ~ uses h y (MapV a)) ->
  let v := map_to_value (Some a) in
  as_map v = Done (Some a) /\ shows h v (mkV TObject (of4t m')) /\ shows (put_v h a k x) v (mkV TObject (of4t (mset str_eqb m' k t))).
Proof.
  intros N SM SX NU v. split; [reflexivity|]. split; [apply sh_obj with (m := m); auto|].
  assert (B : but_for (MapV a) h (put_v h a k x)) by (apply put_but; apply nth_error_Some; congruence).
  apply sh_obj with (m := mset str_eqb m k x); [exact (put_at h a k x m N)|]. apply shows_mset.
  - apply (proj1 (proj2 (shows_same h _))); auto. intros k0 y p I U. apply B. intros ->. eapply NU; [right; exact I|exact U].
  - apply (proj1 (shows_same h _)); auto. intros p U. apply B. intros ->. eapply NU; [left; reflexivity|exact U].
Qed.
Print Assumptions C113_map_shared_refuted.
Theorem C113_slice_shared_refuted h d l1 l2 y x t ts1 ts2 ty : valid (arrs_v h) (Some d) -> contents (arrs_v h) (Some d) = l1 ++ y :: l2 -> shows_l h l1 ts1 -> shows h y ty -> shows_l h l2 ts2 -> shows h x t ->
  (forall z, In z (x :: l1 ++ y :: l2) -> ~ uses h z (ArrV (arr d))) ->
  let v := slice_to_value (Some d) in exists h',
  as_slice v = Done (Some d) /\ shows h v (mkV TArray (of4u (ts1 ++ ty :: ts2))) /\ set_v h (Some d) (length l1) x = Done h' /\ shows h' v (mkV TArray (of4u (ts1 ++ t :: ts2))).
Proof.
  intros V C S1 SY S2 SX NU v. pose proof (sset_spec (arrs_v h) (Some d) (length l1) x V) as SS.
  assert (LA : length l1 < len d). { pose proof (contents_length _ _ V) as CL. rewrite C, app_length in CL. cbn in CL. lia. }
  assert (AP : forall h0 a b a' b', shows_l h0 a a' -> shows_l h0 b b' -> shows_l h0 (a ++ b) (a' ++ b')) by (intros h0 a b a' b' A B; induction A; cbn; [exact B|constructor; auto]).
  destruct (sset (arrs_v h) (Some d) (length l1) x) as [m3| |] eqn:SE; [|cbn in SS; lia|contradiction].
  destruct SS as (_ & _ & _ & CN & V3). rewrite C, set_nth_app in CN. assert (CN2 : contents m3 (Some d) = l1 ++ x :: l2) by congruence.
  set (h3 := mkH (maps_a h) (arrs_a h) (maps_v h) m3).
  assert (B : but_for (ArrV (arr d)) h h3).
  { intros p NP. destruct p; cbn; try reflexivity. unfold sset in SE. destruct (length l1 <? len d); [|discriminate]. injection SE as <-. unfold upd. rewrite nth_upd by exact (proj1 V).
    destruct (n =? arr d) eqn:E; [|reflexivity]. apply Nat.eqb_eq in E. congruence. }
  assert (T : forall z tz, In z (x :: l1 ++ y :: l2) -> shows h z tz -> shows h3 z tz) by (intros z tz I SZ; apply (proj1 (shows_same h h3)); auto; intros p U; apply B; intros ->; exact (NU z I U)).
  assert (TL : forall l ts, shows_l h l ts -> (forall z, In z l -> In z (x :: l1 ++ y :: l2)) -> shows_l h3 l ts).
  { intros l ts SL H. apply (proj2 (proj2 (shows_same h h3))); auto. intros z p I U. apply B. intros ->. exact (NU z (H z I) U). }
  exists h3. split; [reflexivity|]. split; [apply sh_arr; auto; rewrite C; apply AP; auto; constructor; auto|]. split; [unfold set_v; rewrite SE; reflexivity|].
  apply sh_arr; [exact V3|]. change (arrs_v h3) with m3. rewrite CN2. apply AP; [apply TL; auto; intros z I; right; apply in_or_app; auto|].
  constructor; [apply T; auto; left; reflexivity|]. apply TL; auto. intros z I. right. apply in_or_app. right. right. exact I.
Qed.
Print Assumptions C113_slice_shared_refuted.

(** Finding: sharing allows a Value that contains itself, m["k"] = MapToValue(m).  ToAny never returns for it (the stack overflows),
    whatever else is in the map. *)
Lemma to_any_v ex : forall f h v a h', to_any ex f h v = Done (a, h') -> maps_v h' = maps_v h /\ arrs_v h' = arrs_v h.
Proof.
  induction f as [|f IH]; intros h v a h' E; [discriminate|]. destruct v as [|r|s|s|s|b|]; try (injection E as <- <-; auto).
  - rewrite to_any_map in E. destruct (entries (maps_v h) r) as [es| |]; try discriminate. cbn [obind] in E.
    assert (L : forall es h1, amap_loop ex f (length (maps_a h)) es h1 = Done (a, h') -> maps_v h' = maps_v h1 /\ arrs_v h' = arrs_v h1).
    { clear - IH. induction es as [|[k x] es IHe]; intros h1 E; cbn [amap_loop] in E; [injection E as <- <-; auto|]. destruct (to_any ex f h1 x) as [[a1 h2]| |] eqn:T; try discriminate. cbn [obind] in E.
      apply IH in T. apply IHe in E. cbn in E. destruct T, E. split; congruence. }
    apply L in E. exact E.
  - rewrite to_any_slice in E. destruct (smake (arrs_a h) 0 0) as [m t].
    assert (L : forall l t h1, aslice_loop ex f l t h1 = Done (a, h') -> maps_v h' = maps_v h1 /\ arrs_v h' = arrs_v h1).
    { clear - IH. induction l as [|x l IHl]; intros t h1 E; cbn [aslice_loop] in E; [injection E as <- <-; auto|]. destruct (to_any ex f h1 x) as [[a1 h2]| |] eqn:T; try discriminate. cbn [obind] in E.
      destruct (sappend ex (arrs_a h2) t [a1]) as [m3 t']. apply IH in T. apply IHl in E. cbn in E. destruct T, E. split; congruence. }
    apply L in E. exact E.
Qed.
Lemma mset_has {V} (m : list (str * V)) k v : In v (map snd (mset str_eqb m k v)).
Proof. induction m as [|[k1 v1] m IH]; cbn; [auto|]. destruct (str_eqb k k1); cbn; auto. Qed.
Theorem C113_cycle_refuted ex h a k f r : a < length (maps_v h) -> to_any ex f (put_v h a k (map_to_value (Some a))) (HObj (Some a)) <> Done r.
Proof.
  intros L. set (h0 := put_v h a k (map_to_value (Some a))).
  assert (N : exists m, nth_error (maps_v h0) a = Some m /\ In (HObj (Some a)) (map snd m)).
  { destruct (nth_error (maps_v h) a) as [m|] eqn:E; [|apply nth_error_None in E; lia]. exists (mset str_eqb m k (HObj (Some a))). split; [exact (put_at h a k _ m E)|apply mset_has]. }
  destruct N as (m & N & I). assert (G : forall f h1 r, maps_v h1 = maps_v h0 -> to_any ex f h1 (HObj (Some a)) <> Done r); [|apply G; reflexivity].
  clear f r. induction f as [|f IH]; intros h1 r EM E; [discriminate|]. rewrite to_any_map in E. cbn [entries] in E. rewrite EM, N in E. cbn [obind] in E.
  assert (LP : forall es h2, maps_v h2 = maps_v h0 -> In (HObj (Some a)) (map snd es) -> amap_loop ex f (length (maps_a h1)) es h2 <> Done r).
  { clear - IH. induction es as [|[k0 x] es IHe]; intros h2 EM I E; [destruct I|]. cbn [amap_loop] in E. destruct (to_any ex f h2 x) as [[a1 h3]| |] eqn:T; try discriminate. cbn [obind] in E.
    destruct I as [X|I]; [cbn in X; subst x; exact (IH h2 _ EM T)|]. apply to_any_v in T as [T _]. revert E. apply IHe; [change (maps_v h3 = maps_v h0); congruence|exact I]. }
  revert E. apply LP; [reflexivity|exact I].
Qed.
Print Assumptions C113_cycle_refuted.
(** Likewise a map[string]any that contains itself is never converted. *)
Lemma to_value_a : forall f h x v e h', to_value f h x = Done (v, e, h') -> maps_a h' = maps_a h.
Proof.
  induction f as [|f IH]; intros h x v e h' E; [discriminate|]. destruct x as [r|s| | | |s| | |r|r|s| ]; try (injection E as <- <- <-; reflexivity); try discriminate.
  - rewrite to_value_map in E. destruct (entries (maps_a h) r) as [es| |]; try discriminate. cbn [obind] in E.
    assert (L : forall es h1, map_loop f (length (maps_v h)) es h1 = Done (v, e, h') -> maps_a h' = maps_a h1).
    { clear - IH. induction es as [|[k x] es IHe]; intros h1 E; cbn [map_loop] in E; [injection E as <- <- <-; auto|]. destruct (to_value f h1 x) as [[[a1 e1] h2]| |] eqn:T; try discriminate. cbn [obind] in E.
      apply IH in T. destruct e1; [injection E as <- <- <-; exact T|]. apply IHe in E. cbn in E. congruence. }
    apply L in E. exact E.
  - rewrite to_value_slice in E. destruct (smake (arrs_v h) (slen s) (slen s)) as [m t].
    assert (L : forall l i h1, slice_loop f t l i h1 = Done (v, e, h') -> maps_a h' = maps_a h1).
    { clear - IH. induction l as [|x l IHl]; intros i h1 E; cbn [slice_loop] in E; [injection E as <- <- <-; auto|]. destruct (to_value f h1 x) as [[[a1 e1] h2]| |] eqn:T; try discriminate. cbn [obind] in E.
      apply IH in T. destruct e1; [injection E as <- <- <-; exact T|]. unfold set_v in E. destruct (sset (arrs_v h2) t i a1) as [m3| |]; try discriminate. cbn [obind] in E. apply IHl in E. cbn in E. congruence. }
    apply L in E. exact E.
  - cbn in E. destruct (number_match s); injection E as _ _ <-; reflexivity.
  - cbn in E. destruct r; injection E as _ _ <-; reflexivity.
  - cbn in E. destruct r; injection E as _ _ <-; reflexivity.
  - cbn in E. destruct s; injection E as _ _ <-; reflexivity.
Qed.
Theorem C113_map_cycle_refuted h a k f v h' : a < length (maps_a h) -> to_value f (put_a h a k (GMap (Some a))) (GMap (Some a)) <> Done (v, None, h').
Proof.
  intros L. set (h0 := put_a h a k (GMap (Some a))).
  assert (N : exists m, nth_error (maps_a h0) a = Some m /\ In (GMap (Some a)) (map snd m)).
  { destruct (nth_error (maps_a h) a) as [m|] eqn:E; [|apply nth_error_None in E; lia]. exists (mset str_eqb m k (GMap (Some a))). split; [exact (puta_at h a k _ m E)|apply mset_has]. }
  destruct N as (m & N & I). assert (G : forall f h1 v h', maps_a h1 = maps_a h0 -> to_value f h1 (GMap (Some a)) <> Done (v, None, h')); [|apply G; reflexivity].
  clear f v h'. induction f as [|f IH]; intros h1 v h' EM E; [discriminate|]. rewrite to_value_map in E. cbn [entries] in E. rewrite EM, N in E. cbn [obind] in E.
  assert (LP : forall es h2, maps_a h2 = maps_a h0 -> In (GMap (Some a)) (map snd es) -> map_loop f (length (maps_v h1)) es h2 <> Done (v, None, h')).
  { clear - IH. induction es as [|[k0 x] es IHe]; intros h2 EM I E; [destruct I|]. cbn [map_loop] in E. destruct (to_value f h2 x) as [[[a1 [e1|]] h3]| |] eqn:T; try discriminate. cbn [obind] in E.
    destruct I as [X|I]; [cbn in X; subst x; exact (IH h2 _ _ EM T)|]. apply to_value_a in T. revert E. apply IHe; [change (maps_a h3 = maps_a h0); congruence|exact I]. }
  revert E. apply LP; [reflexivity|exact I].
Qed.
Print Assumptions C113_map_cycle_refuted.
(** Finding: ToValue accepts a map[string]Value or a []Value as argument, but always returns an error for one that is not nil (and
    null for a nil one); so does a conversion of a map or slice with a Value in it, wherever it comes first. *)
Theorem C113_values_refuted h : (forall a f, to_value (S f) h (GMapV (Some a)) = Done (HInvalid, Some errConvert, h)) /\
  (forall d f, to_value (S f) h (GSliceV (Some d)) = Done (HInvalid, Some errConvert, h)) /\
  (forall f, to_value (S f) h (GMapV None) = Done (HNull, None, h)) /\
  (forall d v l f, contents (arrs_a h) (Some d) = GValue v :: l -> exists h', to_value (S (S f)) h (GSlice (Some d)) = Done (HInvalid, Some errConvert, h') /\ kept h h').
Proof.
  repeat split; try reflexivity. intros d v l f C. rewrite to_value_slice. destruct (smake (arrs_v h) (slen (Some d)) (slen (Some d))) as [m t] eqn:E. rewrite C. eexists. split; [reflexivity|].
  intros p A. destruct p; cbn in *; try reflexivity. unfold smake in E. injection E as <- _. apply nth_error_app1. exact A.
Qed.

(** Non-vacuity: {"a": [1, "x"]} in a memory with other things in it. *)
Definition ex_heap : heap := mkH [[]; [([97%Z], GSlice (Some (Hdr 0 1 2 2)))]] [[GNil; GInt 1; GString [120%Z]]] [[([98%Z], HNull)]] [[HNull; HBool true; HObj (Some 0)]].
Example C113_nonvacuous : shows_any ex_heap (GMap (Some 1)) (AMap [([97%Z], ASlice [AInt 1; AString [120%Z]])]) /\
  (exists t, toValue (AMap [([97%Z], ASlice [AInt 1; AString [120%Z]])]) = Done (t, None)) /\
  shows ex_heap (HArr (Some (Hdr 0 1 2 2))) (mkV TArray (of4u [boolToValue true; mkV TObject (of4t [([98%Z], nullValue)])])) /\
  ~ uses ex_heap (HBool true) (ArrV 0) /\ ~ uses ex_heap (HObj (Some 0)) (ArrV 0).
Proof.
  split; [|split; [eexists; reflexivity|split; [|split]]].
  - apply sa_map with (m := [([97%Z], GSlice (Some (Hdr 0 1 2 2)))]); [reflexivity|]. repeat constructor; cbn; lia.
  - apply sh_arr; [cbn; lia|]. cbn. constructor; [constructor|]. constructor; [|constructor]. apply sh_obj with (m := [([98%Z], HNull)]); [reflexivity|]. repeat constructor.
  - intros U. inversion U.
  - intros U. inversion U as [|a m k x p N I X| |]; subst. cbn in N. injection N as <-. destruct I as [E|[]]. injection E as <- <-. inversion X.
Qed.
