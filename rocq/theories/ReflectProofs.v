From Verif Require Import Base GoVal Reflect ReflectSpec.
Open Scope nat_scope.

Lemma kind_eqb_eq a b : kind_eqb a b = true <-> a = b.
Proof. split; [|intros ->; destruct b; reflexivity]. destruct a, b; auto; discriminate. Qed.
Lemma kind_eqb_neq a b : kind_eqb a b = false <-> a <> b.
Proof. rewrite <- kind_eqb_eq. destruct (kind_eqb a b); split; congruence. Qed.
Lemma ty_eqb_eq a : forall b, ty_eqb a b = true <-> a = b.
Proof.
  induction a as [k|t IH|k n|x|t IH|n]; intros [k'|t'|k' n'|x'|t'|n']; simpl; try (split; discriminate).
  - rewrite kind_eqb_eq. split; congruence.
  - rewrite IH. split; congruence.
  - rewrite Bool.andb_true_iff, kind_eqb_eq, Nat.eqb_eq. split; [intros []; congruence|intros E; injection E; auto].
  - destruct x, x'; simpl; split; congruence.
  - rewrite IH. split; congruence.
  - rewrite Nat.eqb_eq. split; congruence.
Qed.

Section P.
  Variable env : tyenv.
  Lemma elem_kind t u : elem env t = Some u -> kind_of env t = Pointer.
  Proof. destruct t; simpl; try discriminate; auto. destruct (env n); try discriminate; auto. Qed.

  Lemma pointers_fun n t b : pointers env n t b -> forall m c, pointers env m t c -> n = m /\ b = c.
  Proof.
    induction 1 as [t K|n t u b E P IH]; intros m c Q; inversion Q; subst; auto.
    - exfalso. apply K. eapply elem_kind; eauto.
    - exfalso. match goal with H : kind_of env _ <> Pointer |- _ => apply H end. eapply elem_kind; eauto.
    - assert (u0 = u) by congruence. subst. match goal with Q2 : pointers env _ u c |- _ => apply IH in Q2 as [] end. subst; auto.
  Qed.

  Lemma deref_type_pointers n t b : pointers env n t b -> forall fuel, n < fuel -> deref_type env fuel t = Done b.
  Proof.
    induction 1 as [t K|n t u b E P IH]; intros [|fuel] L; try lia; simpl.
    - apply kind_eqb_neq in K. rewrite K. reflexivity.
    - rewrite (elem_kind _ _ E). simpl. rewrite E. apply IH. lia.
  Qed.
  Lemma deref_type_inv fuel : forall t b, deref_type env fuel t = Done b -> exists n, n < fuel /\ pointers env n t b.
  Proof.
    induction fuel as [|fuel IH]; simpl; intros t b; [discriminate|].
    destruct (kind_eqb _ Pointer) eqn:K.
    - destruct (elem env t) as [u|] eqn:E; [|discriminate]. intros D. apply IH in D as (n & L & P). exists (S n).
      split; [lia|]. econstructor; eauto.
    - intros D. inversion D. subst. exists 0. split; [lia|]. constructor. apply kind_eqb_neq; auto.
  Qed.
  Lemma num_pointers_pointers n t b : pointers env n t b -> forall fuel r, n < fuel -> num_pointers env fuel t r = Done (r + n).
  Proof.
    induction 1 as [t K|n t u b E P IH]; intros [|fuel] r L; try lia; simpl.
    - apply kind_eqb_neq in K. rewrite K. f_equal. lia.
    - rewrite (elem_kind _ _ E). simpl. rewrite E. rewrite IH by lia. f_equal. lia.
  Qed.
  Lemma max1_zero t b fuel : pointers env 0 t b -> 0 < fuel -> deref_type_max1 env fuel t = Done t.
  Proof. inversion 1; subst. destruct fuel; [lia|]. simpl. apply kind_eqb_neq in H0. rewrite H0. reflexivity. Qed.
  Lemma max1_pos n t b : pointers env n t b -> forall fuel, 0 < n -> n <= fuel ->
    exists p, deref_type_max1 env fuel t = Done p /\ elem env p = Some b.
  Proof.
    induction 1 as [t K|n t u b E P IH]; intros [|fuel] L L'; try lia; simpl.
    rewrite (elem_kind _ _ E). simpl. rewrite E. destruct (kind_eqb (kind_of env u) Pointer) eqn:K.
    - destruct n; [inversion P; subst; apply kind_eqb_eq in K; congruence|]. apply IH; lia.
    - inversion P; subst; [exists t; auto|]. apply kind_eqb_neq in K. exfalso. apply K. eapply elem_kind; eauto.
  Qed.
  Lemma endless_elem t : endless env t -> exists u, elem env t = Some u /\ endless env u.
  Proof. intros (f & F0 & FS). exists (f 1). split; [subst; apply FS|]. exists (fun n => f (S n)). split; auto. Qed.
  Lemma endless_diverge fuel : forall t, endless env t ->
    deref_type env fuel t = OutOfFuel /\ deref_type_max1 env fuel t = OutOfFuel /\ forall r, num_pointers env fuel t r = OutOfFuel.
  Proof.
    induction fuel as [|fuel IH]; intros t N; simpl; auto. destruct (endless_elem t N) as (u & E & N').
    destruct (endless_elem u N') as (u' & E' & _). rewrite (elem_kind _ _ E). simpl. rewrite E, (elem_kind _ _ E'). simpl.
    destruct (IH u N') as (A & B & C). auto.
  Qed.

  Lemma nil_ptr h t l u : elem env t = Some u -> is_nil_rv env h (RVal t l) = Done (is_nil_payload (load h l)).
  Proof. intros E. simpl. rewrite (elem_kind _ _ E). reflexivity. Qed.
  Lemma elem_ptr h t l u a : elem env t = Some u -> load h l = PPtr (Some a) -> elem_rv env h (RVal t l) = Done (RVal u (At a)).
  Proof. intros E L. simpl. rewrite (elem_kind _ _ E), L, E. reflexivity. Qed.

  Lemma deref_value_follow h n v w : follows env h n v w -> forall fuel, deref_value env (n + fuel) h v = deref_value env fuel h w.
  Proof.
    induction 1 as [v|n t l u a w E L F IH]; intros fuel; [reflexivity|]. cbn [Nat.add deref_value].
    cbn [kind_rv]. rewrite (elem_kind _ _ E), (nil_ptr h t l u E), L. cbn. rewrite (elem_kind _ _ E), L, E. cbn. apply IH.
  Qed.
  Lemma deref_value_end h w fuel : kind_rv env w <> Pointer -> 0 < fuel -> deref_value env fuel h w = Done w.
  Proof. intros K L. destruct fuel; [lia|]. cbn [deref_value]. apply kind_eqb_neq in K. rewrite K. reflexivity. Qed.
  Lemma deref_value_nil h t l u fuel : elem env t = Some u -> load h l = PPtr None -> 0 < fuel -> deref_value env fuel h (RVal t l) = Done RInvalid.
  Proof.
    intros E L F. destruct fuel; [lia|]. cbn [deref_value kind_rv]. rewrite (elem_kind _ _ E), (nil_ptr h t l u E), L. reflexivity.
  Qed.

  (** DerefValueMaxOnePtr *)
  Lemma max1_value_last h t l u fuel : elem env t = Some u -> kind_of env u <> Pointer -> (exists a, load h l = PPtr a) -> 0 < fuel ->
    deref_value_max1 env fuel h (RVal t l) = Done (RVal t l).
  Proof.
    intros E K (a & L) F. destruct fuel; [lia|]. cbn [deref_value_max1 kind_rv]. rewrite (elem_kind _ _ E), (nil_ptr h t l u E).
    cbn [kind_eqb kind_num Nat.eqb obind type_rv]. rewrite E. apply kind_eqb_neq in K. rewrite K, Bool.andb_false_r.
    cbn [elem_rv]. rewrite (elem_kind _ _ E), L. destruct a as [a|]; [|reflexivity]. rewrite E. cbn [obind kind_rv]. rewrite K. reflexivity.
  Qed.
  Lemma max1_value_nil h t l u u' fuel : elem env t = Some u -> elem env u = Some u' -> load h l = PPtr None -> 0 < fuel ->
    deref_value_max1 env fuel h (RVal t l) = Done RInvalid.
  Proof.
    intros E E' L F. destruct fuel; [lia|]. cbn [deref_value_max1 kind_rv]. rewrite (elem_kind _ _ E), (nil_ptr h t l u E).
    cbn [kind_eqb kind_num Nat.eqb obind type_rv]. rewrite E, (elem_kind _ _ E'), L. reflexivity.
  Qed.
  Lemma max1_value_step h t l u a fuel : elem env t = Some u -> kind_of env u = Pointer -> load h l = PPtr (Some a) ->
    deref_value_max1 env (S fuel) h (RVal t l) = deref_value_max1 env fuel h (RVal u (At a)).
  Proof.
    intros E K L. cbn [deref_value_max1 kind_rv]. rewrite (elem_kind _ _ E), (nil_ptr h t l u E).
    cbn [kind_eqb kind_num Nat.eqb obind type_rv]. rewrite E, K, L.
    cbn [elem_rv]. rewrite (elem_kind _ _ E), L, E. cbn. rewrite K. reflexivity.
  Qed.
  Lemma max1_value_follow h n v w : follows env h n v w -> kind_rv env w = Pointer -> forall fuel,
    deref_value_max1 env (n + fuel) h v = deref_value_max1 env fuel h w.
  Proof.
    induction 1 as [v|n t l u a w E L F IH]; intros K fuel; [reflexivity|]. cbn [Nat.add].
    rewrite (max1_value_step h t l u a); auto. clear IH. inversion F; subst; [exact K|]. eapply elem_kind; eauto.
  Qed.

  Lemma follows_last h n : forall v w, follows env h (S n) v w ->
    exists p q u a, follows env h n v (RVal p q) /\ elem env p = Some u /\ load h q = PPtr (Some a) /\ w = RVal u (At a).
  Proof.
    induction n as [|n IH]; intros v w F; inversion F as [|m t l u a w' E L F' ]; subst.
    - inversion F'; subst. exists t, l, u, a. split; [constructor|auto].
    - apply IH in F' as (p & q & u' & a' & F' & Q). exists p, q, u', a'. split; auto. econstructor; eauto.
  Qed.
  Lemma value_ok_load types h t l : heap_ok env types h -> value_ok env types (RVal t l) -> target_ok env types t (load h l).
  Proof. intros H V. destruct l as [p|a]; simpl in *; auto. Qed.
  Lemma fits_ptr t p : kind_of env t = Pointer -> fits env t p -> exists a, p = PPtr a.
  Proof. unfold fits. intros ->. destruct p; try tauto. eauto. Qed.

  Lemma pointers_not0 t n b : pointers env n t b -> kind_of env t = Pointer -> exists m u, n = S m /\ elem env t = Some u /\ pointers env m u b.
  Proof. intros P K. inversion P; subst; [congruence|]. eauto 6. Qed.

  (** Every well typed value of a type that is finitely many pointers: either all of them are non-nil or one is nil. *)
  Lemma follow_total types h : heap_ok env types h -> forall n t b, pointers env n t b -> forall l, value_ok env types (RVal t l) ->
    (exists l', follows env h n (RVal t l) (RVal b l') /\ value_ok env types (RVal b l')) \/
    (exists m k t' l', m + k = n /\ 0 < k /\ follows env h m (RVal t l) (RVal t' l') /\ pointers env k t' b /\ load h l' = PPtr None).
  Proof.
    intros H. induction 1 as [t K|n t u b E P IH]; intros l V.
    - left. exists l. split; [constructor|auto].
    - destruct (value_ok_load _ _ _ _ H V) as (F & TG). destruct (fits_ptr t _ (elem_kind _ _ E) F) as ([a|] & L).
      + destruct (IH (At a)) as [(l' & F' & V')|(m & k & t' & l' & S1 & S2 & F' & P' & L')].
        * simpl. eapply TG; eauto.
        * left. exists l'. split; auto. econstructor; eauto.
        * right. exists (S m), k, t', l'. split; [lia|]. split; auto. split; [econstructor; eauto|auto].
      + right. exists 0, (S n), t, l. split; [lia|]. split; [lia|]. split; [constructor|]. split; auto. econstructor; eauto.
  Qed.

  Lemma nil_rv_fits h t l : fits env t (load h l) -> nil_kind (kind_of env t) = true ->
    exists b, is_nil_rv env h (RVal t l) = Done b /\ (b = true <-> nil_payload (load h l)).
  Proof.
    intros F K. simpl. rewrite K. eexists. split; [reflexivity|]. unfold nil_payload. destruct (load h l) as [z|[a|]|[x|]|[d|]|fs]; simpl;
      split; intros Q; try discriminate; try tauto; destruct Q as [Q|[Q|Q]]; discriminate.
  Qed.
  Lemma nillable_kind_spec k : nillable_kind k = true <-> k = Invalid \/ nil_kinds k.
  Proof. unfold nil_kinds. destruct k; cbv; split; intuition discriminate. Qed.
  Lemma f_nillable_spec t : f_nillable env t = true <-> nil_kinds (kind_of env t) /\ kind_of env t <> Interface.
  Proof. unfold f_nillable, nil_kinds. destruct (kind_of env t); split; intuition discriminate. Qed.
  Lemma nil_kinds_nil k : nil_kinds k -> nil_kind k = true.
  Proof. unfold nil_kinds. intuition (subst; reflexivity). Qed.
  Lemma zero_payload_spec p : zero_payload p = true <-> all_zero p.
  Proof.
    revert p. fix IH 1. intros [z|[a|]|[x|]|[d|]|fs]; simpl; unfold nil_payload; try (split; intuition discriminate).
    - rewrite Z.eqb_eq. tauto.
    - induction fs as [|x r IHr]; simpl; [tauto|]. rewrite Bool.andb_true_iff, IHr, (IH x). tauto.
  Qed.
End P.
