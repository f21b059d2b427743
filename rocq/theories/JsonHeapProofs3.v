(** ToAny in memory against ToAny without. *)
From Verif Require Import Base GoMap SliceMem SliceMemProofs Slice Decimal Union Rest Json JsonHeap JsonHeapSpec JsonHeapProofs JsonHeapProofs2.
From Coq Require Import ZifyBool.
Open Scope go_scope.
Open Scope nat_scope.

Fixpoint any_map (m : list (str * value)) (acc : list (str * gany)) : outcome gany :=
  match m with [] => Done (AMap acc) | (k, x) :: m' => let! a := toAny x in any_map m' (mset str_eqb acc k a) end.
Fixpoint any_slice (l : list value) (acc : list gany) : outcome gany :=
  match l with [] => Done (ASlice acc) | x :: l' => let! a := toAny x in any_slice l' (acc ++ [a]) end.
Lemma toAny_map m : toAny (mkV TObject (of4t m)) = any_map m []. Proof. reflexivity. Qed.
Lemma toAny_slice l : toAny (mkV TArray (of4u l)) = any_slice l []. Proof. reflexivity. Qed.

Section Any.
  Variable ex : nat -> nat -> nat.
  Section Loops.
    Variables f mp : nat.
    Fixpoint amap_loop (es : list (str * hval)) (h : heap) : outcome (hany * heap) :=
      match es with [] => Done (GMap (Some mp), h) | (k, x) :: es' => let! (a, h1) := to_any ex f h x in amap_loop es' (put_a h1 mp k a) end.
    Fixpoint aslice_loop (l : list hval) (t : slice) (h : heap) : outcome (hany * heap) :=
      match l with
      | [] => Done (GSlice t, h)
      | x :: l' =>
          let! (a, h1) := to_any ex f h x in
          let (m, t') := sappend ex (arrs_a h1) t [a] in
          aslice_loop l' t' (mkH (maps_a h1) m (maps_v h1) (arrs_v h1))
      end.
  End Loops.
  Lemma to_any_map f h r : to_any ex (S f) h (HObj r) = let! es := entries (maps_v h) r in amap_loop f (length (maps_a h)) es (mkH (maps_a h ++ [[]]) (arrs_a h) (maps_v h) (arrs_v h)).
  Proof. reflexivity. Qed.
  Lemma to_any_slice f h s : to_any ex (S f) h (HArr s) =
    let (m, t) := smake (arrs_a h) 0 0 in aslice_loop f (contents (arrs_v h) s) t (mkH (maps_a h) m (maps_v h) (arrs_v h)).
  Proof. reflexivity. Qed.

  Definition owna (h0 : heap) (q : place) (h : heap) (v : hany) : Prop := forall p, uses_any h v p -> allocated h p /\ ~ allocated h0 p /\ p <> q.
  Definition gives (h0 hl : heap) (f : nat -> outcome (hany * heap)) (r : outcome gany) : Prop :=
    exists g a h2 n, r = Done g /\ (forall m, n <= m -> f m = Done (a, h2)) /\ kept hl h2 /\ shows_any h2 a g /\ forall p, uses_any h2 a p -> allocated h2 p /\ ~ allocated h0 p.
  Lemma owna_same h0 q h h' v : (forall p, allocated h p -> p <> q -> same_at h h' p) -> owna h0 q h v -> owna h0 q h' v.
  Proof.
    intros K O p U. assert (U1 : uses_any h v p) by (eapply uses_any_same; eauto; intros x X; destruct (O x X) as (A & _ & C); auto). destruct (O p U1) as (A & B & C). split; auto. eapply allocated_same; eauto.
  Qed.
  Lemma shows_any_own h0 q h h' v t : (forall p, allocated h p -> p <> q -> same_at h h' p) -> owna h0 q h v -> shows_any h v t -> shows_any h' v t.
  Proof. intros K O R. apply (proj1 (shows_any_same h h')); auto. intros p U. destruct (O p U) as (A & _ & C). auto. Qed.
  Definition ownsa_m h0 q h (m : list (str * hany)) : Prop := forall k x, In (k, x) m -> owna h0 q h x.
  Definition ownsa_l h0 q h (l : list hany) : Prop := forall x, In x l -> owna h0 q h x.
  Lemma shows_any_mset h m m' k v t : shows_am h m m' -> shows_any h v t -> shows_am h (mset str_eqb m k v) (mset str_eqb m' k t).
  Proof. intros M V. induction M as [|k0 v0 t0 m m' S0 M IH]; cbn; [repeat constructor; auto|]. destruct (str_eqb k k0); constructor; auto. Qed.
  Lemma shows_any_app h l l' v t : shows_al h l l' -> shows_any h v t -> shows_al h (l ++ [v]) (l' ++ [t]).
  Proof. intros M V. induction M; cbn; repeat constructor; auto. Qed.
  Lemma puta_but h a k x : a < length (maps_a h) -> but_for (MapA a) h (put_a h a k x).
  Proof. intros L p N. destruct p; cbn; try reflexivity. unfold put. rewrite nth_upd by auto. destruct (n =? a) eqn:E; [|reflexivity]. apply Nat.eqb_eq in E. congruence. Qed.
  Lemma puta_at h a k x m : nth_error (maps_a h) a = Some m -> nth_error (maps_a (put_a h a k x)) a = Some (mset str_eqb m k x).
  Proof.
    intros N. cbn. unfold put. assert (a < length (maps_a h)) by (apply nth_error_Some; congruence). rewrite nth_upd, Nat.eqb_refl by auto. rewrite (nth_error_nth _ _ _ N). reflexivity.
  Qed.
  Lemma leaf_gives h1 v a g : (forall f, to_any ex (S f) h1 v = Done (a, h1)) -> shows_any h1 a g -> (forall p, ~ uses_any h1 a p) -> gives h1 h1 (fun f => to_any ex f h1 v) (Done g).
  Proof. intros F R N. exists g, a, h1, 1. split; auto. split; [intros [|m] L; [lia|apply F]|]. split; [apply kept_refl|]. split; auto. intros p U. elim (N p U). Qed.
  (** one more element *)
  Lemma append_one h2 d v : valid (arrs_a h2) (Some d) -> exists m3 d', sappend ex (arrs_a h2) (Some d) [v] = (m3, Some d') /\ valid m3 (Some d') /\ contents m3 (Some d') = contents (arrs_a h2) (Some d) ++ [v] /\
    (arr d' = arr d \/ arr d' = length (arrs_a h2)) /\ (forall n, n < length (arrs_a h2) -> n <> arr d -> nth_error m3 n = nth_error (arrs_a h2) n) /\ length (arrs_a h2) <= length m3.
  Proof.
    intros V. pose proof (sappend_spec ex (arrs_a h2) (Some d) [v] V) as SP. destruct (sappend ex (arrs_a h2) (Some d) [v]) as [m3 s'] eqn:E.
    destruct SP as (V3 & C3 & L3 & F & A & B). unfold sappend in E. destruct (slen (Some d) + length [v] <=? scap (Some d)) eqn:Q.
    - injection E as <- <-. exists (upd (arrs_a h2) (arr d) (write_at (array (arrs_a h2) (arr d)) (off d + len d) [v])), (Hdr (arr d) (off d) (slen (Some d) + length [v]) (cap d)).
      split; [reflexivity|]. split; [exact V3|]. split; [exact C3|]. split; [left; reflexivity|]. split.
      + intros n L N. unfold upd. rewrite nth_upd by exact (proj1 V). destruct (n =? arr d) eqn:X; [apply Nat.eqb_eq in X; congruence|reflexivity].
      + rewrite upd_length by exact (proj1 V). lia.
    - injection E as <- <-. eexists _, _. split; [reflexivity|]. split; [exact V3|]. split; [exact C3|]. split; [right; reflexivity|]. split.
      + intros n L _. apply nth_error_app1. exact L.
      + rewrite app_length. lia.
  Qed.

  Lemma any_loops h :
    (forall v t, shows h v t -> forall h1, kept h h1 -> gives h1 h1 (fun f => to_any ex f h1 v) (toAny t)) /\
    (forall m m', shows_m h m m' -> forall h0 h1 mp acc acc', kept h h0 -> kept h0 h1 -> mp = length (maps_a h0) -> nth_error (maps_a h1) mp = Some acc ->
       shows_am h1 acc acc' -> ownsa_m h0 (MapA mp) h1 acc -> gives h0 h0 (fun f => amap_loop f mp m h1) (any_map m' acc')) /\
    (forall l l', shows_l h l l' -> forall h0 h1 d acc acc', kept h h0 -> kept h0 h1 -> length (arrs_a h0) <= arr d -> valid (arrs_a h1) (Some d) ->
       contents (arrs_a h1) (Some d) = acc ->
       shows_al h1 acc acc' -> ownsa_l h0 (ArrA (arr d)) h1 acc -> gives h0 h0 (fun f => aslice_loop f l (Some d) h1) (any_slice l' acc')).
  Proof.
    apply shows_mut.
    - intros h1 K. apply leaf_gives with (a := GNil); [reflexivity|constructor|intros p U; inversion U].
    - (* map *)
      intros r m m' L _ IH h1 K. rewrite toAny_map.
      assert (EN : entries (maps_v h1) r = Done m).
      { destruct r as [a|]; cbn in *; [|subst; reflexivity]. rewrite (K (MapV a)), L by (cbn; apply nth_error_Some; congruence). reflexivity. }
      set (hb := mkH (maps_a h1 ++ [[]]) (arrs_a h1) (maps_v h1) (arrs_v h1)).
      assert (KB : kept h1 hb). { intros p A. destruct p; cbn in *; try reflexivity. apply nth_error_app1. exact A. }
      assert (NB : nth_error (maps_a hb) (length (maps_a h1)) = Some []). { cbn. rewrite nth_error_app2, Nat.sub_diag by lia. reflexivity. }
      destruct (IH h1 hb (length (maps_a h1)) [] [] K KB eq_refl NB (sam_nil hb) ltac:(intros k x [])) as (g & a & h2 & n & E & M & R).
      exists g, a, h2, (S n). split; [exact E|]. split; [|exact R]. intros [|f] Lf; [lia|]. rewrite to_any_map, EN. cbn [obind]. apply M. lia.
    - (* slice *)
      intros s l V SL IH h1 K. rewrite toAny_slice.
      assert (EC : contents (arrs_v h1) s = contents (arrs_v h) s).
      { destruct s as [d|]; [|reflexivity]. apply contents_same. apply (K (ArrV (arr d))). exact (proj1 V). }
      destruct (smake (arrs_a h1) 0 0) as [mb slc] eqn:MK. pose proof (smake_spec (arrs_a h1) 0 0) as SP. rewrite MK in SP.
      destruct SP as (VB & CB & FB & _ & _ & _ & (d & -> & AD) & LB).
      set (hb := mkH (maps_a h1) mb (maps_v h1) (arrs_v h1)).
      assert (KB : kept h1 hb).
      { intros p A. destruct p; cbn in *; try reflexivity. unfold smake in MK. injection MK as <- _. apply nth_error_app1. exact A. }
      destruct (IH h1 hb d [] [] K KB ltac:(lia) VB CB (sal_nil hb) ltac:(intros x [])) as (g & a & h2 & n & E & M & R).
      exists g, a, h2, (S n). split; [exact E|]. split; [|exact R]. intros [|f] Lf; [lia|]. rewrite to_any_slice, MK, EC. apply M. lia.
    - intros s h1 K. apply leaf_gives with (a := GString s); [reflexivity|constructor|intros p U; inversion U].
    - intros s h1 K. apply leaf_gives with (a := GNumString s); [reflexivity|constructor|intros p U; inversion U].
    - intros b h1 K. replace (toAny (boolToValue b)) with (Done (ABool b)) by (destruct b; reflexivity). apply leaf_gives with (a := GBool b); [reflexivity|constructor|intros p U; inversion U].
    - intros h1 K. apply leaf_gives with (a := GNil); [reflexivity|constructor|intros p U; inversion U].
    - intros h0 h1 mp acc acc' K0 K1 EM N SM OM. cbn [any_map]. exists (AMap acc'), (GMap (Some mp)), h1, 0. split; [reflexivity|]. split; [reflexivity|]. split; [exact K1|].
      split; [apply sa_map with (m := acc); auto|]. intros p U. inversion U as [a|a m0 k x p0 N0 I X| | | | |]; subst.
      + split; [cbn; apply nth_error_Some; congruence|]. cbn. lia.
      + rewrite N in N0. injection N0 as <-. destruct (OM _ _ I _ X) as (A & B & _). auto.
    - intros k v t m m' _ IHv _ IHm h0 h1 mp acc acc' K0 K1 EM N SM OM. destruct (IHv h1 (kept_trans _ _ _ K0 K1)) as (g & a & h2 & n & E & M & K2 & SV & UV). cbn [any_map]. rewrite E. cbn [obind].
      assert (LM : mp < length (maps_a h1)) by (apply nth_error_Some; congruence).
      assert (N2 : nth_error (maps_a h2) mp = Some acc) by (rewrite (K2 (MapA mp) LM); exact N).
      assert (LM2 : mp < length (maps_a h2)) by (apply nth_error_Some; congruence).
      pose proof (puta_but h2 mp k a LM2) as B.
      assert (B' : forall p, allocated h2 p -> p <> MapA mp -> same_at h2 (put_a h2 mp k a) p) by (intros p _ X; apply B; exact X).
      assert (OV : owna h0 (MapA mp) h2 a).
      { intros p U. destruct (UV p U) as (A1 & A2). split; auto. split; [intros X; apply A2; eapply kept_alloc; eauto|]. intros ->. apply A2. exact LM. }
      assert (O2 : ownsa_m h0 (MapA mp) h2 acc) by (intros k0 x I; apply (owna_same _ _ h1); [intros p A _; apply K2; auto|eauto]).
      assert (SM2 : shows_am (put_a h2 mp k a) acc acc').
      { apply (proj1 (proj2 (shows_any_same h2 _))).
        - apply (proj1 (proj2 (shows_any_same h1 h2))); [exact SM|]. intros k0 x p I U. apply K2. apply (OM _ _ I _ U).
        - intros k0 x p I U. apply B. apply (O2 _ _ I _ U). }
      assert (K3 : kept h0 (put_a h2 mp k a)). { eapply but_kept; [exact B|eapply kept_trans; eauto|]. cbn. lia. }
      assert (SM3 : shows_am (put_a h2 mp k a) (mset str_eqb acc k a) (mset str_eqb acc' k g)) by (apply shows_any_mset; auto; eapply shows_any_own; eauto).
      assert (OM3 : ownsa_m h0 (MapA mp) (put_a h2 mp k a) (mset str_eqb acc k a)).
      { intros k0 x I. apply (owna_same _ _ _ _ _ B'). apply mset_in in I as [I| ->]; eauto. }
      destruct (IHm h0 _ mp _ _ K0 K3 EM (puta_at _ _ _ _ _ N2) SM3 OM3) as (g2 & a2 & h3 & n2 & E2 & M2 & R2).
      exists g2, a2, h3, (n + n2). split; [exact E2|]. split; [|exact R2]. intros f L. cbn [amap_loop]. rewrite M by lia. cbn [obind]. apply M2. lia.
    - intros h0 h1 d acc acc' K0 K1 ED V C SM OM. cbn [any_slice]. exists (ASlice acc'), (GSlice (Some d)), h1, 0. split; [reflexivity|]. split; [reflexivity|]. split; [exact K1|].
      split; [apply sa_slice; auto; rewrite C; exact SM|]. intros p U. inversion U as [| |d0|d0 x p0 I X| | |]; subst.
      + split; [exact (proj1 V)|]. cbn. lia.
      + destruct (OM _ I _ X) as (A & B & _). auto.
    - intros v t l l' _ IHv _ IHl h0 h1 d acc acc' K0 K1 ED V C SM OM. destruct (IHv h1 (kept_trans _ _ _ K0 K1)) as (g & a & h2 & n & E & M & K2 & SV & UV). cbn [any_slice]. rewrite E. cbn [obind].
      assert (LM : arr d < length (arrs_a h1)) by exact (proj1 V).
      pose proof (K2 (ArrA (arr d)) LM) as SA. cbn in SA.
      assert (V2 : valid (arrs_a h2) (Some d)) by (eapply valid_same; [|exact V]; intros d0 [= <-]; exact SA).
      assert (C2 : contents (arrs_a h2) (Some d) = acc) by (rewrite (contents_same _ _ _ SA); exact C).
      destruct (append_one h2 d a V2) as (m3 & d' & SE & V3 & C3 & AD & FR & GR). rewrite C2 in C3.
      set (h3 := mkH (maps_a h2) m3 (maps_v h2) (arrs_v h2)).
      assert (B : forall p, allocated h2 p -> p <> ArrA (arr d) -> same_at h2 h3 p).
      { intros p A NP. destruct p; cbn in *; try reflexivity. apply FR; [exact A|congruence]. }
      assert (OV : owna h0 (ArrA (arr d)) h2 a).
      { intros p U. destruct (UV p U) as (A1 & A2). split; auto. split; [intros X; apply A2; eapply kept_alloc; eauto|]. intros ->. apply A2. exact LM. }
      assert (O2 : ownsa_l h0 (ArrA (arr d)) h2 acc) by (intros x I; apply (owna_same _ _ h1); [intros p A _; apply K2; auto|eauto]).
      assert (SM2 : shows_al h3 acc acc').
      { apply (proj2 (proj2 (shows_any_same h2 _))).
        - apply (proj2 (proj2 (shows_any_same h1 h2))); [exact SM|]. intros x p I U. apply K2. apply (OM _ I _ U).
        - intros x p I U. destruct (O2 _ I _ U) as (A & _ & X). apply B; auto. }
      assert (K3 : kept h0 h3).
      { intros p A. eapply same_trans; [apply (kept_trans _ _ _ K1 K2); exact A|]. apply B; [apply (kept_alloc _ _ _ (kept_trans _ _ _ K1 K2) A)|]. intros ->. cbn in A. lia. }
      assert (SM3 : shows_al h3 (acc ++ [a]) (acc' ++ [g])) by (apply shows_any_app; auto; eapply shows_any_own; eauto).
      assert (OM3 : ownsa_l h0 (ArrA (arr d')) h3 (acc ++ [a])).
      { assert (O3 : ownsa_l h0 (ArrA (arr d)) h3 (acc ++ [a])) by (intros x I; apply (owna_same _ _ _ _ _ B); apply in_app_or in I as [I|[<-|[]]]; auto).
        destruct AD as [-> | AD]; [exact O3|]. intros x I p U. destruct (O3 x I p U) as (A1 & A2 & A3). split; auto. split; auto. intros ->.
        assert (OX : owna h0 (ArrA (arr d)) h2 x) by (apply in_app_or in I as [I|[<-|[]]]; auto).
        assert (U2 : uses_any h2 x (ArrA (arr d'))) by (eapply uses_any_same; eauto; intros q Q; destruct (OX q Q) as (X1 & _ & X2); apply B; auto).
        destruct (OX _ U2) as (X & _). cbn in X. lia. }
      assert (LD : length (arrs_a h0) <= arr d').
      { destruct AD as [-> | ->]; [exact ED|]. destruct (Nat.le_gt_cases (length (arrs_a h0)) (length (arrs_a h2))) as [Q|Q]; auto.
        exfalso. pose proof (kept_alloc _ _ (ArrA (length (arrs_a h2))) (kept_trans _ _ _ K1 K2)) as X. cbn in X. specialize (X Q). lia. }
      destruct (IHl h0 h3 d' _ _ K0 K3 LD V3 C3 SM3 OM3) as (g2 & a2 & h4 & n2 & E2 & M2 & R2).
      exists g2, a2, h4, (n + n2). split; [exact E2|]. split; [|exact R2]. intros f L. cbn [aslice_loop]. rewrite M by lia. cbn [obind]. rewrite SE. apply M2. lia.
  Qed.
End Any.
