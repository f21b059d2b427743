(** C62, C68, C69: pointers, nil and base types by reflection. *)
From Verif Require Import Base GoVal Reflect ReflectSpec ReflectProofs.
Open Scope nat_scope.

(** * C62 *)

(** A type that is n pointers to b: DerefType gives b, NumPointers gives n, DerefTypeMaxOnePtr gives the type itself if
    it is not a pointer and otherwise a pointer to b. *)
Theorem C62_types env n t b : pointers env n t b -> forall fuel, n < fuel ->
  deref_type env fuel t = Done b /\ num_pointers env fuel t 0 = Done n /\
  exists p, deref_type_max1 env fuel t = Done p /\ (n = 0 /\ p = t \/ n > 0 /\ elem env p = Some b).
Proof.
  intros P fuel L. split; [eapply deref_type_pointers; eauto|]. split; [exact (num_pointers_pointers env n t b P fuel 0 L)|].
  destruct n.
  - exists t. split; [eapply max1_zero; eauto|auto].
  - destruct (max1_pos env _ _ _ P fuel) as (p & E & Q); [lia|lia|]. exists p. split; auto. right. split; [lia|auto].
Qed.

(** Conversely DerefType only ever returns the type at the end of the pointers, which is not a pointer. *)
Theorem C62_types_only env fuel t b : deref_type env fuel t = Done b -> kind_of env b <> Pointer /\ exists n, pointers env n t b.
Proof.
  intros D. apply deref_type_inv in D as (n & L & P). split; [|eauto]. clear L. induction P; auto.
Qed.

(** Finding: on a defined type that is a pointer to itself (type P *P is legal Go) none of the three terminates. *)
Theorem C62_finding_endless env t : endless env t -> forall fuel,
  deref_type env fuel t = OutOfFuel /\ deref_type_max1 env fuel t = OutOfFuel /\ num_pointers env fuel t 0 = OutOfFuel.
Proof. intros N fuel. destruct (endless_diverge env fuel t N) as (A & B & C). auto. Qed.
Theorem C62_finding_endless_exists : endless (fun _ => UPtr (TNamed 0)) (TNamed 0).
Proof. exists (fun _ => TNamed 0). split; auto. Qed.

(** DerefValue on every well typed value: it never panics; the result is what all the pointers lead to, or the invalid
    Value if one of them is nil. *)
Theorem C62_value env types h n t b l : heap_ok env types h -> value_ok env types (RVal t l) -> pointers env n t b ->
  forall fuel, n < fuel -> exists w, deref_value env fuel h (RVal t l) = Done w /\
    ((exists l', w = RVal b l' /\ follows env h n (RVal t l) w) \/
     (w = RInvalid /\ exists m k u, m + k = n /\ follows env h m (RVal t l) u /\ nil_pointer env h k u)).
Proof.
  intros H V P fuel L. destruct (follow_total env types h H n t b P l V) as [(l' & F & V')|(m & k & t' & l' & S1 & S2 & F & P' & N)].
  - exists (RVal b l'). split; [|left; eauto]. replace fuel with (n + (fuel - n)) by lia. rewrite (deref_value_follow env h _ _ _ F).
    apply deref_value_end; [|lia]. simpl. eapply C62_types_only. eapply deref_type_pointers with (fuel := S n); eauto.
  - exists RInvalid. split; [|right; split; auto; exists m, k, (RVal t' l'); split; auto; split; auto; exists t', l', b; split; [auto|]; split; [auto|]; split; [lia|auto]].
    replace fuel with (m + (fuel - m)) by lia. rewrite (deref_value_follow env h _ _ _ F). destruct k; [lia|]. inversion P'; subst.
    eapply deref_value_nil; eauto. lia.
Qed.

(** DerefValueMaxOnePtr on every well typed value: it never panics; a non-pointer is returned as it is; otherwise the
    result is the last pointer of the chain, nil or not, or the invalid Value if an earlier one is nil. *)
Theorem C62_value_max1 env types h n t b l : heap_ok env types h -> value_ok env types (RVal t l) -> pointers env n t b ->
  forall fuel, n < fuel ->
  exists w, deref_value_max1 env fuel h (RVal t l) = Done w /\
    ((n = 0 /\ w = RVal t l) \/
     (exists m p l', n = S m /\ w = RVal p l' /\ elem env p = Some b /\ follows env h m (RVal t l) w) \/
     (w = RInvalid /\ exists m k u, m + k = n /\ k > 1 /\ follows env h m (RVal t l) u /\ nil_pointer env h k u)).
Proof.
  intros H V P fuel L. destruct n as [|n].
  { exists (RVal t l). split; [|auto]. destruct fuel; [lia|]. cbn [deref_value_max1 kind_rv]. inversion P; subst.
    apply kind_eqb_neq in H0. rewrite H0. reflexivity. }
  assert (KB : kind_of env b <> Pointer) by (eapply C62_types_only, deref_type_pointers with (fuel := S (S n)); eauto).
  destruct (follow_total env types h H (S n) t b P l V) as [(l' & F & V')|(m & k & t' & l' & S1 & S2 & F & P' & N)].
  - (* the last pointer is at distance n *)
    apply follows_last in F as (p & q & u & a & F & E & L' & W). injection W as Wu Wl. subst u l'.
    exists (RVal p q). split; [|right; left; exists n, p, q; auto]. replace fuel with (n + (fuel - n)) by lia.
    rewrite (max1_value_follow env h _ _ _ F) by (simpl; eapply elem_kind; eauto). eapply max1_value_last; eauto. lia.
  - destruct k as [|[|k]]; [lia| |].
    + inversion P'; subst. inversion H2; subst. exists (RVal t' l'). split.
      * replace fuel with (m + (fuel - m)) by lia. rewrite (max1_value_follow env h _ _ _ F) by (simpl; eapply elem_kind; eauto).
        eapply max1_value_last; eauto. lia.
      * right. left. exists m, t', l'. split; [lia|auto].
    + exists RInvalid. split.
      * inversion P'; subst. inversion H2; subst. replace fuel with (m + (fuel - m)) by lia.
        rewrite (max1_value_follow env h _ _ _ F) by (simpl; eapply elem_kind; eauto). eapply max1_value_nil; eauto. lia.
      * right. right. split; auto. exists m, (S (S k)), (RVal t' l'). split; [auto|]. split; [lia|]. split; [auto|].
        exists t', l', b. split; [auto|]. split; [auto|]. split; [lia|auto].
Qed.

(** SetPointerValue through at least one pointer: if a pointer is nil or the value cannot be converted it panics;
    otherwise exactly the cell the pointers lead to is overwritten, by the converted value, which is what dereferencing
    gives afterwards. *)
Theorem C62_set env types h convert n t b l val : heap_ok env types h -> value_ok env types (RVal t l) -> pointers env (S n) t b ->
  forall fuel, S n < fuel ->
  (exists a, follows env h (S n) (RVal t l) (RVal b (At a)) /\
     ((exists p, convert val b = Done p /\ set_pointer_value env convert fuel h (RVal t l) val = Done (hset h a p) /\
        (forall c, c <> a -> hset h a p c = h c) /\
        deref_value env fuel (hset h a p) (RVal t l) = Done (RVal b (At a)) /\ load (hset h a p) (At a) = p) \/
      ((forall p, convert val b <> Done p) /\ forall h', set_pointer_value env convert fuel h (RVal t l) val <> Done h'))) \/
  (exists m k u, m + k = S n /\ follows env h m (RVal t l) u /\ nil_pointer env h k u /\
     set_pointer_value env convert fuel h (RVal t l) val = Panicked).
Proof.
  intros H V P fuel L.
  assert (KB : kind_of env b <> Pointer) by (eapply C62_types_only, deref_type_pointers with (fuel := S (S n)); eauto).
  destruct (follow_total env types h H (S n) t b P l V) as [(l' & F & V')|(m & k & t' & l' & S1 & S2 & F & P' & N)].
  - destruct (follows_last env h n _ _ F) as (p0 & q0 & u0 & a & _ & _ & _ & W). injection W as W0 W. subst l'.
    left. exists a. split; auto. unfold set_pointer_value.
    assert (D : deref_value env fuel h (RVal t l) = Done (RVal b (At a))).
    { replace fuel with (S n + (fuel - S n)) by lia. rewrite (deref_value_follow env h _ _ _ F). apply deref_value_end; [auto|lia]. }
    rewrite D. cbn [obind type_rv]. destruct (convert val b) as [p| |] eqn:C; cbn [obind].
    + left. exists p. split; auto. split; auto. split.
      { intros c Q. unfold hset. apply Nat.eqb_neq in Q. rewrite Q. reflexivity. }
      split; [|simpl; unfold hset; rewrite Nat.eqb_refl; reflexivity].
      assert (F' : follows env (hset h a p) (S n) (RVal t l) (RVal b (At a))).
      { assert (G : forall k v w, follows env h k v w -> value_ok env types v -> follows env (hset h a p) k v w); [|eapply G; eauto].
        clear - V' KB H. induction 1 as [v|k t l u c w E L F IH]; intros V; [constructor|].
        pose proof (value_ok_load env types h t l H V) as (_ & TG). econstructor; eauto.
        - destruct l as [pl|q]; [exact L|]. simpl in *. unfold hset. destruct (Nat.eqb q a) eqn:QA; auto. apply Nat.eqb_eq in QA. subst q.
          exfalso. apply KB. assert (b = t) by congruence. subst. eapply elem_kind; eauto.
        - apply IH. simpl. eapply TG; eauto. }
      replace fuel with (S n + (fuel - S n)) by lia. rewrite (deref_value_follow env _ _ _ _ F'). apply deref_value_end; [auto|lia].
    + right. split; [intros p; discriminate|intros h'; discriminate].
    + right. split; [intros p; discriminate|intros h'; discriminate].
  - right. exists m, k, (RVal t' l'). split; auto. split; auto. split.
    { exists t', l', b. split; [auto|]. split; [auto|]. split; [lia|auto]. }
    unfold set_pointer_value. replace fuel with (m + (fuel - m)) by lia. rewrite (deref_value_follow env h _ _ _ F).
    destruct k; [lia|]. inversion P'; subst. erewrite deref_value_nil; eauto. lia.
Qed.

(** A pointer to a pointer to an int, with the inner pointer nil or not *)
Example C62_ex : let env := fun _ => UBasic Int in let pp := TPtr (TPtr (TBasic Int)) in
  let types := fun a => match a with 0 => Some (TPtr (TBasic Int)) | 1 => Some (TBasic Int) | _ => None end in
  let h := fun a => match a with 0 => PPtr (Some 1) | _ => PScalar 7 end in
  let h0 := fun a => match a with 0 => PPtr None | _ => PScalar 7 end in
  let v := RVal pp (Temp (PPtr (Some 0))) in
  pointers env 2 pp (TBasic Int) /\ heap_ok env types h /\ value_ok env types v /\
  deref_value env 3 h v = Done (RVal (TBasic Int) (At 1)) /\ deref_value env 3 h0 v = Done RInvalid /\
  deref_value_max1 env 3 h0 v = Done (RVal (TPtr (TBasic Int)) (At 0)).
Proof.
  split. { econstructor; [reflexivity|]. econstructor; [reflexivity|]. constructor. discriminate. }
  split. { intros [|[|a]] t E; inversion E; subst; split; try exact Logic.I; intros u c; simpl; intros X Y; inversion X; inversion Y; subst; reflexivity. }
  split. { split; [exact Logic.I|]. intros u c; simpl; intros X Y; inversion X; inversion Y; subst; reflexivity. }
  repeat split; reflexivity.
Qed.

(** * C68 *)

(** reflect.IsNil never panics on a well typed Value and is true exactly for the invalid Value and for nil chans, funcs,
    interfaces, maps, pointers and slices. *)
Theorem C68_is_nil env h v : (forall t l, v = RVal t l -> fits env t (load h l)) ->
  exists b, is_nil env h v = Done b /\
    (b = true <-> v = RInvalid \/ exists t l, v = RVal t l /\ nil_kinds (kind_of env t) /\ nil_payload (load h l)).
Proof.
  intros F. destruct v as [|t l]; [exists true; split; auto; tauto|]. unfold is_nil. cbn [is_valid negb type_rv obind is_nillable_type].
  specialize (F t l eq_refl). destruct (nillable_kind (kind_of env t)) eqn:K.
  - apply nillable_kind_spec in K. assert (K' : nil_kinds (kind_of env t)).
    { destruct K as [K|K]; auto. unfold fits in F. rewrite K in F. destruct (load h l); tauto. }
    destruct (nil_rv_fits env h t l F (nil_kinds_nil _ K')) as (b & E & B). exists b. split; auto. rewrite B. split.
    + intros N. right. eauto.
    + intros [Q|(t' & l' & Q & _ & N)]; [discriminate|]. injection Q as -> ->. auto.
  - exists false. split; auto. split; [discriminate|]. intros [Q|(t' & l' & Q & K' & N)]; [discriminate|]. injection Q as -> ->.
    assert (nillable_kind (kind_of env t') = true) by (apply nillable_kind_spec; auto). congruence.
Qed.

(** IsNillable is true exactly for a nil Type, an invalid Value, and the six kinds that can be nil. *)
Theorem C68_is_nillable env t v :
  (is_nillable_type env t = true <-> t = None \/ exists u, t = Some u /\ (kind_of env u = Invalid \/ nil_kinds (kind_of env u))) /\
  (is_nillable_value env v = true <-> kind_rv env v = Invalid \/ nil_kinds (kind_rv env v)) /\
  (forall u, f_nillable env u = true <-> nil_kinds (kind_of env u) /\ kind_of env u <> Interface).
Proof.
  split; [|split; [apply nillable_kind_spec|apply f_nillable_spec]]. destruct t as [u|]; simpl; [|split; auto].
  rewrite nillable_kind_spec. split; [right; eauto|]. intros [Q|(u' & Q & K)]; [discriminate|]. injection Q as ->. auto.
Qed.

Lemma nil_value_any env d : any_ok env d -> exists b, is_nil_value env d = Done b /\ (b = true <-> any_nil env d).
Proof.
  destruct d as [[t p]|]; simpl; [|exists true; unfold is_nil_value; simpl; split; auto; tauto]. intros (K & F).
  unfold is_nil_value. cbn [value_of is_valid negb type_rv obind]. destruct (f_nillable env t) eqn:N.
  - apply f_nillable_spec in N as (N & _). destruct (nil_rv_fits env (fun _ => PScalar 0) t (Temp p) F (nil_kinds_nil _ N)) as (b & E & B).
    exists b. split; auto. rewrite B. simpl. tauto.
  - exists false. split; auto. split; [discriminate|]. intros (N' & _).
    assert (f_nillable env t = true) by (apply f_nillable_spec; auto). congruence.
Qed.
(** funcs.IsNilValue of any variable: never panics, and true exactly for nil: a nil interface, a nil chan, func, map,
    pointer or slice, or an interface holding one of these. *)
Theorem C68_is_nil_value env t p : var_ok env t p ->
  exists b, is_nil_value env (to_any t p) = Done b /\ (b = true <-> any_nil env (to_any t p)).
Proof.
  intros (F & A). apply nil_value_any. destruct p as [z|a|x|d|fs]; simpl; auto; (split; [|exact F]); intros K; unfold fits in F; rewrite K in F; auto.
Qed.
(** The filters funcs.IsNil[T]() and funcs.IsNonNil[T](): for a T of kind chan, func, map, pointer or slice they tell nil
    values from others; for every other T, interfaces included, building them panics. *)
Theorem C68_filters env t z p : var_ok env t z -> all_zero z -> fits env t p ->
  (nil_kinds (kind_of env t) /\ kind_of env t <> Interface ->
     exists b, f_is_nil env t z p = Done b /\ f_is_non_nil env t z p = Done (negb b) /\ (b = true <-> nil_payload p)) /\
  (~ (nil_kinds (kind_of env t) /\ kind_of env t <> Interface) -> f_is_nil env t z p = Panicked /\ f_is_non_nil env t z p = Panicked).
Proof.
  intros (FZ & AZ) Z F. unfold f_is_nil, f_is_non_nil, dyn_type. rewrite <- f_nillable_spec.
  destruct (kind_eqb (kind_of env t) Interface) eqn:KI.
  - apply kind_eqb_eq in KI. assert (NN : f_nillable env t = false) by (unfold f_nillable; rewrite KI; auto). rewrite NN.
    split; [discriminate|]. intros _. unfold fits in FZ. rewrite KI in FZ. destruct z as [z|a|x|d|fs]; try tauto. simpl in *.
    destruct Z as [Q|[Q|Q]]; try discriminate. injection Q as ->. auto.
  - apply kind_eqb_neq in KI.
    assert (TA : forall q, fits env t q -> to_any t q = Some (t, q)).
    { intros [q|a|x|d|fs] Fq; auto. unfold fits in Fq. destruct (kind_of env t); try tauto; congruence. }
    rewrite !TA by auto. cbn [must_be_nillable]. destruct (f_nillable env t) eqn:N; (split; [intros Q|intros Q; try congruence]); try discriminate; auto.
    cbn [obind]. apply f_nillable_spec in N as (N & _).
    destruct (nil_rv_fits env (fun _ => PScalar 0) t (Temp p) F (nil_kinds_nil _ N)) as (b & E & B). cbn [value_of]. rewrite E. exists b. auto.
Qed.
(** MustNonNilValue returns its argument when it is a non-nil value of a nillable type and panics otherwise; MustNonZero
    returns its argument when it is not the zero value and panics otherwise. *)
Theorem C68_must env t p : var_ok env t p ->
  (must_non_nil env t p = Done p /\ ~ any_nil env (to_any t p) /\ (exists u q, to_any t p = Some (u, q) /\ nil_kinds (kind_of env u)) \/
   must_non_nil env t p = Panicked /\ (any_nil env (to_any t p) \/ exists u q, to_any t p = Some (u, q) /\ ~ nil_kinds (kind_of env u))) /\
  (must_non_zero t p = Done p /\ ~ all_zero p \/
   must_non_zero t p = Panicked /\ (all_zero p \/ exists u q, p = PIface (Some (u, q)) /\ all_zero q)).
Proof.
  intros V. split.
  - destruct (C68_is_nil_value env t p V) as (b & E & B). destruct V as (F & A).
    assert (AO : any_ok env (to_any t p)).
    { destruct p as [z|a|x|d|fs]; simpl; auto; (split; [|exact F]); intros K; unfold fits in F; rewrite K in F; auto. }
    unfold must_non_nil. destruct (to_any t p) as [[u q]|] eqn:TA; [|right; split; [reflexivity|left; exact Logic.I]].
    cbn [value_of type_rv obind must_be_nillable]. destruct (f_nillable env u) eqn:N.
    + cbn [obind]. rewrite E. cbn [obind]. apply f_nillable_spec in N as (N & _). destruct b.
      * right. split; auto. left. apply B. auto.
      * left. split; auto. split; [|eauto]. intros Q. apply B in Q. discriminate.
    + right. split; auto. right. exists u, q. split; auto. intros Q. assert (f_nillable env u = true); [|congruence].
      apply f_nillable_spec. split; auto. destruct AO; auto.
  - unfold must_non_zero. destruct p as [z|a|x|[[u q]|]|fs].
    all: cbn [to_any].
    4: { destruct (zero_payload q) eqn:Q; [right; split; auto; right; exists u, q; split; auto; apply zero_payload_spec; auto|].
         left. split; auto. simpl. unfold nil_payload. intuition discriminate. }
    4: { right. split; auto. left. simpl. unfold nil_payload. auto. }
    all: match goal with |- context [zero_payload ?x] => destruct (zero_payload x) eqn:Q end;
         [right; split; auto; left; apply zero_payload_spec; auto|left; split; auto; intros W; apply zero_payload_spec in W; congruence].
Qed.

Example C68_ex : let env := fun _ => UBasic Int in
  is_nil_value env (to_any (TOther Interface 0) (PIface (Some (TPtr (TBasic Int), PPtr None)))) = Done true /\
  is_nil_value env (to_any (TBasic Int) (PScalar 0)) = Done false /\
  f_is_nil env (TOther Slice 0) (PNilable None) (PNilable (Some 3%Z)) = Done false /\
  must_non_nil env (TBasic Int) (PScalar 1) = Panicked.
Proof. repeat split. Qed.

(** * C69 *)

(** The classification functions, in terms of the kinds the documentation names *)
Theorem C69_classes env t :
  (is_signed env t = true <-> In (kind_of env t) [Int; Int8; Int16; Int32; Int64]) /\
  (is_unsigned env t = true <-> In (kind_of env t) [Uint; Uint8; Uint16; Uint32; Uint64]) /\
  (is_numeric env t = true <-> is_signed env t = true \/ is_unsigned env t = true \/ In (kind_of env t) [Float32; Float64] \/
     exists b, t = TPtr (TBig b)) /\
  (is_primitive_type env t = true <-> is_signed env t = true \/ is_unsigned env t = true \/
     In (kind_of env t) [Bool; Float32; Float64; Complex64; Complex128; String]).
Proof.
  assert (B : is_big_ptr t = true <-> exists b, t = TPtr (TBig b)).
  { destruct t as [k|[k|u|k n|b|u|n]|k n|b|u|n]; simpl; split; intros W; try discriminate W; try (destruct W as (b' & W); discriminate W); eauto. }
  unfold is_numeric. rewrite Bool.orb_true_iff, B. unfold is_signed, is_unsigned, is_primitive_type.
  destruct (kind_of env t); cbn; intuition discriminate.
Qed.

(** TypeToBaseType: nil unless the type is a defined type of a primitive kind, and then the predeclared type of that kind *)
Theorem C69_base env t :
  (forall u, type_to_base env t = Some u -> u = TBasic (kind_of env t) /\ t <> u /\ is_primitive_type env t = true) /\
  (type_to_base env t = None -> is_primitive_type env t = false \/ t = TBasic (kind_of env t)).
Proof.
  unfold type_to_base, is_primitive_type. destruct (base_kind (kind_of env t)) eqn:K; simpl; [|split; [discriminate|auto]].
  destruct t; simpl in *; split; try discriminate; auto; intros u E; injection E as <-; repeat split; auto; discriminate.
Qed.

(** ValueToBaseType: a value of a primitive kind gets the predeclared type and keeps its value; an unnamed pointer to
    such a value gets the type pointer to the predeclared type and keeps its address; any other value is returned
    unchanged. *)
Theorem C69_value_base env h v : (forall t l, v = RVal t l -> fits env t (load h l) /\ (kind_of env t = Pointer -> elem env t <> None)) ->
  (forall t l, v = RVal t l -> has_name t = true -> kind_of env t <> Pointer) ->
  exists w, value_to_base env h v = Done w /\
  match v with
  | RInvalid => w = v
  | RVal t l =>
      if is_primitive_type env t then exists l', w = RVal (TBasic (kind_of env t)) l' /\ load h l' = load h l
      else match elem env t with
           | Some u => if is_primitive_type env u then
                         (exists l', w = RVal (TPtr (TBasic (kind_of env u))) l' /\ load h l' = load h l) \/ load h l = PPtr None /\ w = v
                       else w = v
           | None => w = v
           end
  end.
Proof.
  intros F NN. destruct v as [|t l]; [exists RInvalid; auto|]. specialize (F t l eq_refl) as (F & EL). specialize (NN t l eq_refl).
  unfold value_to_base, is_primitive_type. destruct (base_kind (kind_of env t)) eqn:K.
  { destruct (predeclared t) eqn:PD; simpl.
    - assert (KN : kind_eqb (kind_of env t) Pointer = false) by (destruct (kind_of env t); auto; discriminate).
      rewrite KN. exists (RVal t l). split; auto. exists l. destruct t; try discriminate. auto.
    - eexists. split; [reflexivity|]. eexists. split; reflexivity. }
  cbn [andb]. destruct (kind_eqb (kind_of env t) Pointer) eqn:KP.
  - apply kind_eqb_eq in KP. destruct (fits_ptr env t _ KP F) as (a & L). destruct (elem env t) as [u|] eqn:E; [|exfalso; apply EL; auto].
    cbn [elem_rv]. rewrite KP, L, E. destruct a as [a|]; cbn [obind].
    + destruct (base_kind (kind_of env u)) eqn:KU; cbn [andb]; [|exists (RVal t l); auto].
      destruct (predeclared u) eqn:PU; cbn [negb].
      * exists (RVal t l). split; auto. left. exists l. destruct u; try discriminate. destruct t; simpl in E; try discriminate.
        { injection E as ->. auto. } { exfalso. apply NN; auto. }
      * destruct (has_name t) eqn:HN; [exfalso; apply NN; auto|]. eexists. split; [reflexivity|]. left. eexists. split; [reflexivity|]. simpl. congruence.
    + exists (RVal t l). split; auto. destruct (base_kind (kind_of env u)); auto.
  - exists (RVal t l). split; auto. destruct (elem env t) eqn:E; auto. apply elem_kind in E. apply kind_eqb_neq in KP. congruence.
Qed.
(** Finding: ValueToBaseType panics on a non-nil pointer of a defined pointer type to a primitive subtype (type P *MyInt). *)
Theorem C69_finding_named_pointer : let env := fun n => match n with 0 => UBasic Int | _ => UPtr (TNamed 0) end in
  value_to_base env (fun _ => PScalar 5) (RVal (TNamed 1) (Temp (PPtr (Some 0)))) = Panicked.
Proof. reflexivity. Qed.

(** ResolveValueType and TypeAssert: on every value whose dynamic value exists, TypeAssert accepts exactly the dynamic type *)
Theorem C69_type_assert env h t l typ : fits env t (load h l) ->
  (kind_of env t <> Interface -> resolve_value_type env h (RVal t l) = RVal t l /\
     exists b, type_assert env h (RVal t l) typ = Done b /\ (b = true <-> t = typ)) /\
  (forall u p, load h l = PIface (Some (u, p)) -> resolve_value_type env h (RVal t l) = RVal u (Temp p) /\
     exists b, type_assert env h (RVal t l) typ = Done b /\ (b = true <-> u = typ)).
Proof.
  intros F. split.
  - intros K. assert (R : resolve_value_type env h (RVal t l) = RVal t l) by (unfold resolve_value_type; apply kind_eqb_neq in K; rewrite K; auto).
    split; auto. unfold type_assert. rewrite R. simpl. eexists. split; [reflexivity|apply ty_eqb_eq].
  - intros u p L. assert (K : kind_of env t = Interface) by (unfold fits in F; rewrite L in F; destruct (kind_of env t); tauto).
    assert (R : resolve_value_type env h (RVal t l) = RVal u (Temp p)) by (unfold resolve_value_type; rewrite K, L; auto).
    split; auto. unfold type_assert. rewrite R. simpl. eexists. split; [reflexivity|apply ty_eqb_eq].
Qed.
(** Finding: TypeAssert panics on a nil interface value and on the invalid Value instead of returning an error. *)
Theorem C69_finding_assert_nil env h typ :
  type_assert env h RInvalid typ = Panicked /\ type_assert env h (RVal (TOther Interface 0) (Temp (PIface None))) typ = Panicked.
Proof. split; reflexivity. Qed.

(** ValueMaxOnePtrType: the type without its pointer if there is at most one, nil for the invalid Value or more pointers *)
Theorem C69_max1_type env n t b l : pointers env n t b ->
  value_max1_type env RInvalid = None /\ (n <= 1 -> value_max1_type env (RVal t l) = Some b) /\ (n > 1 -> value_max1_type env (RVal t l) = None).
Proof.
  intros P. split; auto. unfold value_max1_type. inversion P as [t' K|m t' u b' E Q]; subst.
  - split; [|lia]. intros _. apply kind_eqb_neq in K. rewrite K. reflexivity.
  - rewrite (elem_kind _ _ _ E), E. cbn [kind_eqb kind_num Nat.eqb]. inversion Q as [t' K|m' t' u' b' E' Q']; subst.
    + split; [|lia]. intros _. apply kind_eqb_neq in K. rewrite K. reflexivity.
    + split; [lia|]. intros _. rewrite (elem_kind _ _ _ E'). reflexivity.
Qed.
Example C69_ex : let env := fun _ => UBasic Uint8 in
  type_to_base env (TNamed 4) = Some (TBasic Uint8) /\ is_numeric env (TNamed 4) = true /\ is_numeric env (TPtr (TBig BigRat)) = true /\
  value_to_base env (fun _ => PScalar 9) (RVal (TPtr (TNamed 4)) (Temp (PPtr (Some 2)))) = Done (RVal (TPtr (TBasic Uint8)) (Temp (PPtr (Some 2)))).
Proof. repeat split. Qed.
