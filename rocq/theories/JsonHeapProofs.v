(** Values in memory: what stays as it is. *)
From Verif Require Import Base GoMap SliceMem SliceMemProofs Slice Decimal Union Rest Json JsonHeap JsonHeapSpec.
From Coq Require Import ZifyBool.
Open Scope go_scope.
Open Scope nat_scope.

Scheme shows_i := Minimality for shows Sort Prop with shows_m_i := Minimality for shows_m Sort Prop with shows_l_i := Minimality for shows_l Sort Prop.
Combined Scheme shows_mut from shows_i, shows_m_i, shows_l_i.
Scheme shows_any_i := Minimality for shows_any Sort Prop with shows_am_i := Minimality for shows_am Sort Prop with shows_al_i := Minimality for shows_al Sort Prop.
Combined Scheme shows_any_mut from shows_any_i, shows_am_i, shows_al_i.

(** ** Memory *)
Lemma nth_upd {A} (m : list A) a x b : a < length m -> nth_error (firstn a m ++ x :: skipn (S a) m) b = if b =? a then Some x else nth_error m b.
Proof.
  intros L. destruct (b =? a) eqn:E.
  - apply Nat.eqb_eq in E. subst b. rewrite nth_error_app2; rewrite firstn_length, Nat.min_l by lia; [|lia]. rewrite Nat.sub_diag. reflexivity.
  - apply Nat.eqb_neq in E. destruct (Nat.lt_ge_cases b a) as [X|X].
    + rewrite nth_error_app1 by (rewrite firstn_length; lia). rewrite nth_error_firstn'. destruct (b <? a) eqn:Y; [reflexivity|lia].
    + rewrite nth_error_app2 by (rewrite firstn_length; lia). rewrite firstn_length, Nat.min_l by lia. destruct (b - a) as [|c] eqn:Y; [lia|].
      cbn [nth_error]. rewrite nth_error_skipn'. f_equal. lia.
Qed.
Lemma upd_len {A} (m : list A) a x : a < length m -> length (firstn a m ++ x :: skipn (S a) m) = length m.
Proof. intros L. rewrite app_length, firstn_length. change (length (x :: skipn (S a) m)) with (S (length (skipn (S a) m))). rewrite skipn_length. lia. Qed.
Lemma array_nth {T} (m m' : mem T) a : nth_error m' a = nth_error m a -> array m' a = array m a.
Proof.
  intros E. unfold array. destruct (nth_error m a) as [x|] eqn:X.
  - rewrite (nth_error_nth m' a [] E). rewrite (nth_error_nth m a [] X). reflexivity.
  - apply nth_error_None in E, X. rewrite !nth_overflow; auto.
Qed.
Lemma contents_same {T} (m m' : mem T) d : nth_error m' (arr d) = nth_error m (arr d) -> contents m' (Some d) = contents m (Some d).
Proof. intros E. unfold contents. rewrite (array_nth _ _ _ E). reflexivity. Qed.
Lemma valid_same {T} (m m' : mem T) s : (forall d, s = Some d -> nth_error m' (arr d) = nth_error m (arr d)) -> valid m s -> valid m' s.
Proof.
  intros E V. destruct s as [d|]; auto. specialize (E d eq_refl). cbn in *. destruct V as (A & B & C). rewrite (array_nth _ _ _ E). split; [|tauto].
  apply nth_error_Some. rewrite E. apply nth_error_Some. exact A.
Qed.
Lemma allocated_same h h' p : allocated h p -> same_at h h' p -> allocated h' p.
Proof. destruct p; cbn; intros A E; apply nth_error_Some; rewrite E; apply nth_error_Some; exact A. Qed.
Lemma same_refl h p : same_at h h p. Proof. destruct p; reflexivity. Qed.
Lemma same_trans h1 h2 h3 p : same_at h1 h2 p -> same_at h2 h3 p -> same_at h1 h3 p.
Proof. destruct p; cbn; congruence. Qed.
Lemma kept_refl h : kept h h. Proof. intros p _. apply same_refl. Qed.
Lemma kept_trans h1 h2 h3 : kept h1 h2 -> kept h2 h3 -> kept h1 h3.
Proof. intros A B p L. eapply same_trans; [apply A; auto|]. apply B. eapply allocated_same; eauto. Qed.
Lemma kept_alloc h h' p : kept h h' -> allocated h p -> allocated h' p.
Proof. intros K A. eapply allocated_same; eauto. Qed.

(** ** What a Value uses decides what it shows *)
Lemma shows_same h h' :
  (forall v t, shows h v t -> (forall p, uses h v p -> same_at h h' p) -> shows h' v t) /\
  (forall m m', shows_m h m m' -> (forall k x p, In (k, x) m -> uses h x p -> same_at h h' p) -> shows_m h' m m') /\
  (forall l l', shows_l h l l' -> (forall x p, In x l -> uses h x p -> same_at h h' p) -> shows_l h' l l').
Proof.
  apply shows_mut.
  - intros _. constructor.
  - intros r m m' L _ IH U. apply sh_obj with (m := m).
    + destruct r as [a|]; [|exact L]. cbn in *. rewrite (U _ (u_map h a)). exact L.
    + apply IH. intros k x p I X. apply U. destruct r as [a|]; [eapply u_in_map; eauto|]. cbn in L. subst m. destruct I.
  - intros s l V _ IH U. assert (E : contents (arrs_v h') s = contents (arrs_v h) s).
    { destruct s as [d|]; [|reflexivity]. apply contents_same. exact (U _ (u_arr h d)). }
    apply sh_arr; [eapply valid_same; [|exact V]; intros d ->; exact (U _ (u_arr h d))|]. rewrite E. apply IH.
    intros x p I X. apply U. destruct s as [d|]; [eapply u_in_arr; eauto|destruct I].
  - constructor.
  - constructor.
  - constructor.
  - constructor.
  - constructor.
  - intros k v t m m' _ IH _ IHm U. constructor; [apply IH; intros p X; apply (U k v p); [left; auto|auto]|]. apply IHm. intros k0 x p I X. apply (U k0 x p); [right; auto|auto].
  - constructor.
  - intros v t l l' _ IH _ IHl U. constructor; [apply IH; intros p X; apply (U v p); [left; auto|auto]|]. apply IHl. intros x p I X. apply (U x p); [right; auto|auto].
Qed.
Lemma uses_same h h' v p : uses h' v p -> (forall q, uses h v q -> same_at h h' q) -> uses h v p.
Proof.
  induction 1 as [a|a m k x p N I _ IH|d|d x p I _ IH]; intros U.
  - constructor.
  - pose proof (U _ (u_map h a)) as E. cbn in E. rewrite E in N. eapply u_in_map; eauto. apply IH. intros q X. apply U. eapply u_in_map; eauto.
  - constructor.
  - pose proof (U _ (u_arr h d)) as E. cbn in E. rewrite (contents_same _ _ _ E) in I. eapply u_in_arr; eauto. apply IH. intros q X. apply U. eapply u_in_arr; eauto.
Qed.
Lemma shows_allocated h :
  (forall v t, shows h v t -> forall p, uses h v p -> allocated h p) /\
  (forall m m', shows_m h m m' -> forall k x p, In (k, x) m -> uses h x p -> allocated h p) /\
  (forall l l', shows_l h l l' -> forall x p, In x l -> uses h x p -> allocated h p).
Proof.
  apply shows_mut.
  - intros p U. inversion U.
  - intros r m m' L _ IH p U. inversion U as [a|a m0 k x p0 N I X| |]; subst; cbn in *.
    + apply nth_error_Some. congruence.
    + rewrite N in L. injection L as ->. eapply IH; eauto.
  - intros s l V _ IH p U. inversion U as [| |d|d x p0 I X]; subst; cbn in *; [tauto|]. eapply IH; eauto.
  - intros s p U. inversion U.
  - intros s p U. inversion U.
  - intros s p U. inversion U.
  - intros p U. inversion U.
  - intros k x p [].
  - intros k v t m m' _ IH _ IHm k0 x p [E|I] U; [injection E as -> ->; eauto|eauto].
  - intros x p [].
  - intros v t l l' _ IH _ IHl x p [E|I] U; [subst; eauto|eauto].
Qed.
Lemma shows_kept h h' v t : kept h h' -> shows h v t -> shows h' v t.
Proof. intros K R. apply (proj1 (shows_same h h')); auto. intros p U. apply K. eapply (proj1 (shows_allocated h)); eauto. Qed.

Lemma shows_any_same h h' :
  (forall v t, shows_any h v t -> (forall p, uses_any h v p -> same_at h h' p) -> shows_any h' v t) /\
  (forall m m', shows_am h m m' -> (forall k x p, In (k, x) m -> uses_any h x p -> same_at h h' p) -> shows_am h' m m') /\
  (forall l l', shows_al h l l' -> (forall x p, In x l -> uses_any h x p -> same_at h h' p) -> shows_al h' l l').
Proof.
  apply shows_any_mut; try (intros; constructor; fail).
  - intros r m m' L _ IH U. apply sa_map with (m := m).
    + destruct r as [a|]; [|exact L]. cbn in *. rewrite (U _ (ua_map h a)). exact L.
    + apply IH. intros k x p I X. apply U. destruct r as [a|]; [eapply ua_in_map; eauto|]. cbn in L. subst m. destruct I.
  - intros s l V _ IH U. assert (E : contents (arrs_a h') s = contents (arrs_a h) s).
    { destruct s as [d|]; [|reflexivity]. apply contents_same. exact (U _ (ua_arr h d)). }
    apply sa_slice; [eapply valid_same; [|exact V]; intros d ->; exact (U _ (ua_arr h d))|]. rewrite E. apply IH.
    intros x p I X. apply U. destruct s as [d|]; [eapply ua_in_arr; eauto|destruct I].
  - intros k v t m m' _ IH _ IHm U. constructor; [apply IH; intros p X; apply (U k v p); [left; auto|auto]|]. apply IHm. intros k0 x p I X. apply (U k0 x p); [right; auto|auto].
  - intros v t l l' _ IH _ IHl U. constructor; [apply IH; intros p X; apply (U v p); [left; auto|auto]|]. apply IHl. intros x p I X. apply (U x p); [right; auto|auto].
Qed.
Lemma uses_any_same h h' v p : uses_any h' v p -> (forall q, uses_any h v q -> same_at h h' q) -> uses_any h v p.
Proof.
  induction 1 as [a|a m k x p N I _ IH|d|d x p I _ IH|a p X|d p X|v p X]; intros U.
  - constructor.
  - pose proof (U _ (ua_map h a)) as E. cbn in E. rewrite E in N. eapply ua_in_map; eauto. apply IH. intros q X. apply U. eapply ua_in_map; eauto.
  - constructor.
  - pose proof (U _ (ua_arr h d)) as E. cbn in E. rewrite (contents_same _ _ _ E) in I. eapply ua_in_arr; eauto. apply IH. intros q X. apply U. eapply ua_in_arr; eauto.
  - constructor. eapply uses_same; eauto. intros q Y. apply U. constructor; auto.
  - constructor. eapply uses_same; eauto. intros q Y. apply U. constructor; auto.
  - constructor. eapply uses_same; eauto. intros q Y. apply U. constructor; auto.
Qed.
(** the maps and slices of any are not touched: the same any in the later memory *)
Definition kept_a (h h' : heap) : Prop := forall n, (n < length (maps_a h) -> nth_error (maps_a h') n = nth_error (maps_a h) n) /\ (n < length (arrs_a h) -> nth_error (arrs_a h') n = nth_error (arrs_a h) n).
Lemma kept_kept_a h h' : kept h h' -> kept_a h h'.
Proof. intros K n. split; intros L; [exact (K (MapA n) L)|exact (K (ArrA n) L)]. Qed.
Lemma shows_any_kept h h' : kept h h' ->
  (forall v t, shows_any h v t -> shows_any h' v t) /\ (forall m m', shows_am h m m' -> shows_am h' m m') /\ (forall l l', shows_al h l l' -> shows_al h' l l').
Proof.
  intros K. apply kept_kept_a in K. apply shows_any_mut; try (intros; constructor; auto; fail).
  - intros r m m' L _ IH. apply sa_map with (m := m); auto. destruct r as [a|]; [|exact L]. cbn in *. rewrite <- L. apply (K a). apply nth_error_Some. congruence.
  - intros s l V _ IH. destruct s as [d|]; [|apply sa_slice; auto]. destruct V as (V1 & V2). destruct (K (arr d)) as [_ K2]. specialize (K2 V1).
    apply sa_slice; [eapply valid_same; [|split; eauto]; intros d0 [= ->]; exact K2|]. rewrite (contents_same _ _ _ K2). exact IH.
Qed.
