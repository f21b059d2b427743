(** toValue in memory against toValue without. *)
From Verif Require Import Base GoMap SliceMem SliceMemProofs Slice Decimal Union Rest Json JsonHeap JsonHeapSpec JsonHeapProofs.
From Coq Require Import ZifyBool.
Open Scope go_scope.
Open Scope nat_scope.

(** ** The loops by name *)
Fixpoint value_map (m : list (str * gany)) (mp : list (str * value)) : outcome (ret value) :=
  match m with
  | [] => Done (mapToValue mp)
  | (k, v) :: m' => let! r := toValue v in match r with (_, Some e) => Done (zv, Some e) | (jval, None) => value_map m' (mset str_eqb mp k jval) end
  end.
Fixpoint value_slice (l : list gany) (slc : list value) : outcome (ret value) :=
  match l with
  | [] => Done (sliceToValue slc)
  | v :: l' => let! r := toValue v in match r with (_, Some e) => Done (zv, Some e) | (jval, None) => value_slice l' (slc ++ [jval]) end
  end.
Lemma toValue_map m : toValue (AMap m) = value_map m []. Proof. reflexivity. Qed.
Lemma toValue_slice l : toValue (ASlice l) = value_slice l []. Proof. reflexivity. Qed.
Section Loops.
Variables f mp : nat.
Variable slc : slice.
Fixpoint map_loop (es : list (str * hany)) (h : heap) : outcome (hval * option err * heap) :=
  match es with
  | [] => Done (HObj (Some mp), None, h)
  | (k, v) :: es' => let! (jval, e, h1) := to_value f h v in match e with Some e => Done (HInvalid, Some e, h1) | None => map_loop es' (put_v h1 mp k jval) end
  end.
Fixpoint slice_loop (l : list hany) (i : nat) (h : heap) : outcome (hval * option err * heap) :=
  match l with
  | [] => Done (HArr slc, None, h)
  | v :: l' => let! (jval, e, h1) := to_value f h v in match e with Some e => Done (HInvalid, Some e, h1) | None => let! h2 := set_v h1 slc i jval in slice_loop l' (S i) h2 end
  end.
End Loops.
Lemma to_value_map f h r : to_value (S f) h (GMap r) = let! es := entries (maps_a h) r in map_loop f (length (maps_v h)) es (mkH (maps_a h) (arrs_a h) (maps_v h ++ [[]]) (arrs_v h)).
Proof. reflexivity. Qed.
Lemma to_value_slice f h s : to_value (S f) h (GSlice s) =
  let (m, slc) := smake (arrs_v h) (slen s) (slen s) in slice_loop f slc (contents (arrs_a h) s) 0 (mkH (maps_a h) (arrs_a h) (maps_v h) m).
Proof. reflexivity. Qed.

(** ** Results *)
(** everything [v] uses is there, was not there in [h0], and is not [q] *)
Definition own (h0 : heap) (q : place) (h : heap) (v : hval) : Prop := forall p, uses h v p -> allocated h p /\ ~ allocated h0 p /\ p <> q.
Definition result (h0 h2 : heap) (v : hval) (t : value) : Prop := shows h2 v t /\ forall p, uses h2 v p -> allocated h2 p /\ ~ allocated h0 p.
Definition meets (h0 : heap) (hl : heap) (f : nat -> outcome (hval * option err * heap)) (r : outcome (ret value)) : Prop :=
  match r with
  | Panicked => exists n, forall m, n <= m -> f m = Panicked
  | OutOfFuel => False
  | Done (t, e) => exists v h2 n, (forall m, n <= m -> f m = Done (v, e, h2)) /\ kept hl h2 /\ (e = None -> result h0 h2 v t) /\ (e <> None -> v = HInvalid)
  end.
Lemma own_later h0 q h h' v : kept h h' -> own h0 q h v -> own h0 q h' v.
Proof.
  intros K O p U. assert (U1 : uses h v p) by (eapply uses_same; eauto; intros x X; apply K; apply (O x X)). destruct (O p U1) as (A & B). split; auto. eapply kept_alloc; eauto.
Qed.
Lemma own_but h0 q h h' v : but_for q h h' -> own h0 q h v -> own h0 q h' v.
Proof.
  intros K O p U. assert (U1 : uses h v p) by (eapply uses_same; eauto; intros x X; apply K; apply (O x X)). destruct (O p U1) as (A & B & C). split; auto. eapply allocated_same; eauto.
Qed.
Lemma shows_but h0 q h h' v t : but_for q h h' -> own h0 q h v -> shows h v t -> shows h' v t.
Proof. intros K O R. apply (proj1 (shows_same h h')); auto. intros p U. apply K. apply (O p U). Qed.
Definition owns_m h0 q h (m : list (str * hval)) : Prop := forall k x, In (k, x) m -> own h0 q h x.
Definition owns_l h0 q h (l : list hval) : Prop := forall x, In x l -> own h0 q h x.
Lemma mset_in {V} (m : list (str * V)) k v k0 x : In (k0, x) (mset str_eqb m k v) -> In (k0, x) m \/ x = v.
Proof.
  induction m as [|[k1 v1] m IH]; cbn; [intros [E|[]]; injection E as <- <-; auto|]. destruct (str_eqb k k1); intros [E|I]; [injection E as <- <-; auto|auto|auto|].
  destruct (IH I); auto.
Qed.
Lemma shows_mset h m m' k v t : shows_m h m m' -> shows h v t -> shows_m h (mset str_eqb m k v) (mset str_eqb m' k t).
Proof. intros M V. induction M as [|k0 v0 t0 m m' S0 M IH]; cbn; [repeat constructor; auto|]. destruct (str_eqb k k0); constructor; auto. Qed.
Lemma shows_app h l l' v t : shows_l h l l' -> shows h v t -> shows_l h (l ++ [v]) (l' ++ [t]).
Proof. intros M V. induction M; cbn; repeat constructor; auto. Qed.
Lemma put_but h a k x : a < length (maps_v h) -> but_for (MapV a) h (put_v h a k x).
Proof. intros L p N. destruct p; cbn; try reflexivity. unfold put. rewrite nth_upd by auto. destruct (n =? a) eqn:E; [|reflexivity]. apply Nat.eqb_eq in E. congruence. Qed.
Lemma put_at h a k x m : nth_error (maps_v h) a = Some m -> nth_error (maps_v (put_v h a k x)) a = Some (mset str_eqb m k x).
Proof.
  intros N. cbn. unfold put. assert (a < length (maps_v h)) by (apply nth_error_Some; congruence). rewrite nth_upd, Nat.eqb_refl by auto. rewrite (nth_error_nth _ _ _ N). reflexivity.
Qed.
Lemma but_kept h0 q h h' : but_for q h h' -> kept h0 h -> ~ allocated h0 q -> kept h0 h'.
Proof. intros B K N p A. eapply same_trans; [apply K; auto|]. apply B. intros ->. contradiction. Qed.

Definition tv_goal (h : heap) (a : hany) (g : gany) : Prop := forall h1, kept h h1 -> meets h1 h1 (fun f => to_value f h1 a) (toValue g).

Lemma leaf_meets h1 a v t e : (forall f, to_value (S f) h1 a = Done (v, e, h1)) -> (e = None -> shows h1 v t) -> (forall p, ~ uses h1 v p) -> (e <> None -> v = HInvalid) ->
  meets h1 h1 (fun f => to_value f h1 a) (Done (t, e)).
Proof.
  intros F R N I. exists v, h1, 1. split; [intros [|m] L; [lia|apply F]|]. split; [apply kept_refl|]. split; auto. intros E. split; auto. intros p U. elim (N p U).
Qed.

Lemma value_loops h :
  (forall a g, shows_any h a g -> tv_goal h a g) /\
  (forall m m', shows_am h m m' -> forall h0 h1 mp acc acc', kept h h0 -> kept h0 h1 -> mp = length (maps_v h0) -> nth_error (maps_v h1) mp = Some acc ->
     shows_m h1 acc acc' -> owns_m h0 (MapV mp) h1 acc -> meets h0 h0 (fun f => map_loop f mp m h1) (value_map m' acc')) /\
  (forall l l', shows_al h l l' -> forall h0 h1 d acc acc', kept h h0 -> kept h0 h1 -> arr d = length (arrs_v h0) -> valid (arrs_v h1) (Some d) ->
     contents (arrs_v h1) (Some d) = acc ++ repeat HInvalid (length l) ->
     shows_l h1 acc acc' -> owns_l h0 (ArrV (arr d)) h1 acc -> meets h0 h0 (fun f => slice_loop f (Some d) l (length acc) h1) (value_slice l' acc')).
Proof.
  apply shows_any_mut.
  - (* map *)
    intros r m m' L _ IH h1 K. rewrite toValue_map.
    assert (EN : entries (maps_a h1) r = Done m).
    { destruct r as [a|]; cbn in *; [|subst; reflexivity]. rewrite (K (MapA a)), L by (cbn; apply nth_error_Some; congruence). reflexivity. }
    set (hb := mkH (maps_a h1) (arrs_a h1) (maps_v h1 ++ [[]]) (arrs_v h1)).
    assert (KB : kept h1 hb). { intros p A. destruct p; cbn in *; try reflexivity. apply nth_error_app1. exact A. }
    assert (NB : nth_error (maps_v hb) (length (maps_v h1)) = Some []). { cbn. rewrite nth_error_app2, Nat.sub_diag by lia. reflexivity. }
    pose proof (IH h1 hb (length (maps_v h1)) [] [] K KB eq_refl NB (sm_nil hb) ltac:(intros k x [])) as M.
    unfold meets in *. destruct (value_map m' []) as [[t e]| |]; [|destruct M as (n & M)|exact M].
    + destruct M as (v & h2 & n & M & R). exists v, h2, (S n). split; [|exact R]. intros [|f] Lf; [lia|]. rewrite to_value_map, EN. cbn [obind]. apply M. lia.
    + exists (S n). intros [|f] Lf; [lia|]. rewrite to_value_map, EN. cbn [obind]. apply M. lia.
  - (* slice *)
    intros s l V SL IH h1 K. rewrite toValue_slice.
    assert (EC : contents (arrs_a h1) s = contents (arrs_a h) s).
    { destruct s as [d|]; [|reflexivity]. apply contents_same. apply (K (ArrA (arr d))). exact (proj1 V). }
    destruct (smake (arrs_v h1) (slen s) (slen s)) as [mb slc] eqn:MK. pose proof (smake_spec (arrs_v h1) (slen s) (slen s)) as SP. rewrite MK in SP.
    destruct SP as (VB & CB & FB & _ & _ & _ & (d & -> & AD) & LB).
    set (hb := mkH (maps_a h1) (arrs_a h1) (maps_v h1) mb).
    assert (KB : kept h1 hb).
    { intros p A. destruct p; cbn in *; try reflexivity. unfold smake in MK. injection MK as <- _. apply nth_error_app1. exact A. }
    assert (CB' : contents (arrs_v hb) (Some d) = [] ++ repeat HInvalid (length (contents (arrs_a h) s))).
    { cbn [app]. rewrite contents_length by exact V. exact CB. }
    pose proof (IH h1 hb d [] [] K KB AD VB CB' (sl_nil hb) ltac:(intros x [])) as M. cbn [length] in M.
    unfold meets in *. destruct (value_slice l []) as [[t e]| |]; [|destruct M as (n & M)|exact M].
    + destruct M as (v & h2 & n & M & R). exists v, h2, (S n). split; [|exact R]. intros [|f] Lf; [lia|]. rewrite to_value_slice, MK, EC. apply M. lia.
    + exists (S n). intros [|f] Lf; [lia|]. rewrite to_value_slice, MK, EC. apply M. lia.
  - intros b h1 K. apply leaf_meets with (v := HBool b); [reflexivity|constructor|intros p U; inversion U|congruence].
  - intros h1 K. apply leaf_meets with (v := HNull); [reflexivity|constructor|intros p U; inversion U|congruence].
  - intros s h1 K. apply leaf_meets with (v := HStr s); [reflexivity|constructor|intros p U; inversion U|congruence].
  - intros s h1 K. cbn [toValue numberToValue]. destruct (number_match s) eqn:E.
    + apply leaf_meets with (v := HNum s); [intros f; cbn; rewrite E; reflexivity|constructor|intros p U; inversion U|congruence].
    + apply leaf_meets with (v := HInvalid); [intros f; cbn; rewrite E; reflexivity|discriminate|intros p U; inversion U|congruence].
  - intros s h1 K. exists 1. intros [|m] L; [lia|reflexivity].
  - intros z h1 K. apply leaf_meets with (v := HNum (int_to_string z)); [reflexivity|constructor|intros p U; inversion U|congruence].
  - intros [s|e] h1 K; cbn [toValue numberToValue].
    + apply leaf_meets with (v := HNum s); [reflexivity|constructor|intros p U; inversion U|congruence].
    + apply leaf_meets with (v := HInvalid); [reflexivity|discriminate|intros p U; inversion U|congruence].
  - intros a h1 K. apply leaf_meets with (v := HInvalid); [reflexivity|discriminate|intros p U; inversion U|congruence].
  - intros a h1 K. apply leaf_meets with (v := HInvalid); [reflexivity|discriminate|intros p U; inversion U|congruence].
  - intros h1 K. apply leaf_meets with (v := HNull); [reflexivity|constructor|intros p U; inversion U|congruence].
  - intros h1 K. apply leaf_meets with (v := HNull); [reflexivity|constructor|intros p U; inversion U|congruence].
  - intros v h1 K. apply leaf_meets with (v := HInvalid); [reflexivity|discriminate|intros p U; inversion U|congruence].
  - (* no more entries *)
    intros h0 h1 mp acc acc' K0 K1 EM N SM OM. cbn [value_map]. exists (HObj (Some mp)), h1, 0. split; [reflexivity|]. split; [exact K1|]. split; [|congruence]. intros _.
    split; [apply sh_obj with (m := acc); auto|]. intros p U. inversion U as [a|a m0 k x p0 N0 I X| |]; subst.
    + split; [cbn; apply nth_error_Some; congruence|]. cbn. lia.
    + rewrite N in N0. injection N0 as <-. destruct (OM _ _ I _ X) as (A & B & _). auto.
  - (* entry *)
    intros k a g m m' _ IHa _ IHm h0 h1 mp acc acc' K0 K1 EM N SM OM. pose proof (IHa h1 (kept_trans _ _ _ K0 K1)) as MA. cbn [value_map]. unfold meets in MA.
    destruct (toValue g) as [[t [e|]]| |].
    + destruct MA as (v & h2 & n & M & K2 & _ & _). cbn [obind]. exists HInvalid, h2, n. split; [intros f L; cbn [map_loop]; rewrite M by auto; reflexivity|].
      split; [eapply kept_trans; eauto|]. split; [discriminate|auto].
    + destruct MA as (v & h2 & n & M & K2 & R & _). destruct (R eq_refl) as [SV UV]. cbn [obind].
      assert (LM : mp < length (maps_v h1)) by (apply nth_error_Some; congruence).
      assert (N2 : nth_error (maps_v h2) mp = Some acc) by (rewrite (K2 (MapV mp) LM); exact N).
      assert (LM2 : mp < length (maps_v h2)) by (apply nth_error_Some; congruence).
      pose proof (put_but h2 mp k v LM2) as B.
      assert (OV : own h0 (MapV mp) h2 v).
      { intros p U. destruct (UV p U) as (A1 & A2). split; auto. split; [intros X; apply A2; eapply kept_alloc; eauto|]. intros ->. apply A2. exact LM. }
      assert (O2 : owns_m h0 (MapV mp) h2 acc) by (intros k0 x I; eapply own_later; eauto).
      assert (SM2 : shows_m (put_v h2 mp k v) acc acc').
      { apply (proj1 (proj2 (shows_same h2 _))).
        - apply (proj1 (proj2 (shows_same h1 h2))); [exact SM|]. intros k0 x p I U. apply K2. apply (OM _ _ I _ U).
        - intros k0 x p I U. apply B. apply (O2 _ _ I _ U). }
      specialize (IHm h0 (put_v h2 mp k v) mp (mset str_eqb acc k v) (mset str_eqb acc' k t) K0).
      assert (K3 : kept h0 (put_v h2 mp k v)). { eapply but_kept; [exact B|eapply kept_trans; eauto|]. cbn. lia. }
      specialize (IHm K3 EM (put_at _ _ _ _ _ N2)).
      assert (SM3 : shows_m (put_v h2 mp k v) (mset str_eqb acc k v) (mset str_eqb acc' k t)) by (apply shows_mset; auto; eapply shows_but; eauto).
      assert (OM3 : owns_m h0 (MapV mp) (put_v h2 mp k v) (mset str_eqb acc k v)).
      { intros k0 x I. apply (own_but _ _ _ _ _ B). apply mset_in in I as [I| ->]; eauto. }
      specialize (IHm SM3 OM3). unfold meets in *. destruct (value_map m' _) as [[t2 e2]| |]; [|destruct IHm as (n2 & M2)|exact IHm].
      * destruct IHm as (v2 & h3 & n2 & M2 & R2). exists v2, h3, (n + n2). split; [|exact R2]. intros f L. cbn [map_loop]. rewrite M by lia. cbn [obind]. apply M2. lia.
      * exists (n + n2). intros f L. cbn [map_loop]. rewrite M by lia. cbn [obind]. apply M2. lia.
    + destruct MA as (n & M). exists n. intros f L. cbn [map_loop]. rewrite M by auto. reflexivity.
    + contradiction.
  - (* no more elements *)
    intros h0 h1 d acc acc' K0 K1 ED V C SM OM. cbn [length repeat] in C. rewrite app_nil_r in C. cbn [value_slice]. exists (HArr (Some d)), h1, 0. split; [reflexivity|]. split; [exact K1|]. split; [|congruence]. intros _.
    split; [apply sh_arr; auto; rewrite C; exact SM|]. intros p U. inversion U as [| |d0|d0 x p0 I X]; subst.
    + split; [exact (proj1 V)|]. cbn. lia.
    + destruct (OM _ I _ X) as (A & B & _). auto.
  - (* element *)
    intros a g l l' _ IHa _ IHl h0 h1 d acc acc' K0 K1 ED V C SM OM. pose proof (IHa h1 (kept_trans _ _ _ K0 K1)) as MA. cbn [value_slice]. unfold meets in MA.
    destruct (toValue g) as [[t [e|]]| |].
    + destruct MA as (v & h2 & n & M & K2 & _ & _). cbn [obind]. exists HInvalid, h2, n. split; [intros f L; cbn [slice_loop]; rewrite M by auto; reflexivity|].
      split; [eapply kept_trans; eauto|]. split; [discriminate|auto].
    + destruct MA as (v & h2 & n & M & K2 & R & _). destruct (R eq_refl) as [SV UV]. cbn [obind].
      assert (LM : arr d < length (arrs_v h1)) by exact (proj1 V).
      pose proof (K2 (ArrV (arr d)) LM) as SA. cbn in SA.
      assert (V2 : valid (arrs_v h2) (Some d)) by (eapply valid_same; [|exact V]; intros d0 [= <-]; exact SA).
      assert (C2 : contents (arrs_v h2) (Some d) = acc ++ HInvalid :: repeat HInvalid (length l)) by (rewrite (contents_same _ _ _ SA); exact C).
      pose proof (sset_spec (arrs_v h2) (Some d) (length acc) v V2) as SS. rewrite C2 in SS.
      assert (LA : length acc < len d). { pose proof (contents_length _ _ V2) as CL. rewrite C2, app_length in CL. cbn in CL. rewrite repeat_length in CL. lia. }
      destruct (sset (arrs_v h2) (Some d) (length acc) v) as [m3| |] eqn:SE; [|cbn in SS; lia|contradiction].
      destruct SS as (_ & _ & L3 & CN & V3). rewrite set_nth_app in CN. injection CN as CN.
      set (h3 := mkH (maps_a h2) (arrs_a h2) (maps_v h2) m3).
      assert (B : but_for (ArrV (arr d)) h2 h3).
      { intros p NP. destruct p; cbn; try reflexivity. unfold sset in SE. destruct (length acc <? len d); [|discriminate]. injection SE as <-. unfold upd. rewrite nth_upd by exact (proj1 V2).
        destruct (n0 =? arr d) eqn:E; [|reflexivity]. apply Nat.eqb_eq in E. congruence. }
      assert (OV : own h0 (ArrV (arr d)) h2 v).
      { intros p U. destruct (UV p U) as (A1 & A2). split; auto. split; [intros X; apply A2; eapply kept_alloc; eauto|]. intros ->. apply A2. exact LM. }
      assert (O2 : owns_l h0 (ArrV (arr d)) h2 acc) by (intros x I; eapply own_later; eauto).
      assert (SM2 : shows_l h3 acc acc').
      { apply (proj2 (proj2 (shows_same h2 _))).
        - apply (proj2 (proj2 (shows_same h1 h2))); [exact SM|]. intros x p I U. apply K2. apply (OM _ I _ U).
        - intros x p I U. apply B. apply (O2 _ I _ U). }
      assert (K3 : kept h0 h3). { eapply but_kept; [exact B|eapply kept_trans; eauto|]. cbn. lia. }
      assert (C3 : contents (arrs_v h3) (Some d) = (acc ++ [v]) ++ repeat HInvalid (length l)) by (rewrite <- app_assoc; symmetry; exact CN).
      assert (SM3 : shows_l h3 (acc ++ [v]) (acc' ++ [t])) by (apply shows_app; auto; eapply shows_but; eauto).
      assert (OM3 : owns_l h0 (ArrV (arr d)) h3 (acc ++ [v])).
      { intros x I. apply (own_but _ _ _ _ _ B). apply in_app_or in I as [I|[<-|[]]]; auto. }
      specialize (IHl h0 h3 d (acc ++ [v]) (acc' ++ [t]) K0 K3 ED V3 C3 SM3 OM3). rewrite app_length, Nat.add_1_r in IHl.
      unfold meets in *. destruct (value_slice l' _) as [[t2 e2]| |]; [|destruct IHl as (n2 & M2)|exact IHl].
      * destruct IHl as (v2 & h4 & n2 & M2 & R2). exists v2, h4, (n + n2). split; [|exact R2]. intros f L. cbn [slice_loop]. rewrite M by lia. cbn [obind]. unfold set_v. rewrite SE. cbn [obind]. apply M2. lia.
      * exists (n + n2). intros f L. cbn [slice_loop]. rewrite M by lia. cbn [obind]. unfold set_v. rewrite SE. cbn [obind]. apply M2. lia.
    + destruct MA as (n & M). exists n. intros f L. cbn [slice_loop]. rewrite M by auto. reflexivity.
    + contradiction.
Qed.
