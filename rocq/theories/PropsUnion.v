(** C51, C70: unions, Maybe and Result; Maybe by reflection. *)
From Verif Require Import Base GoVal Reflect ReflectSpec ReflectProofs PropsReflect Union UnionSpec MaybeReflect.
Open Scope nat_scope.

(** * C51 *)
Lemma held_snoc {A} (a0 : A) ops a : held a0 (ops ++ [a]) = a.
Proof. unfold held. apply last_last. Qed.

(** Whatever a union was created with and whatever was set since, it holds exactly what was set last (or what it was
    created with): Which says so, the matching accessor returns it and all the others panic. *)
Theorem C51_two {T U} {ZT : Zero T} {ZU : Zero U} (a0 : alt4 T U Empty_set Empty_set) ops :
  let s := run2 (created2 a0) ops in
  which2 s = alt_tag (held a0 ops) /\ sees (held a0 ops) (get2t s) (get2u s) Panicked Panicked.
Proof.
  destruct ops as [|a ops] using rev_ind; [destruct a0 as [t|u|[]|[]]; repeat split|]. clear IHops.
  cbv zeta. unfold run2. rewrite held_snoc, fold_left_app. cbn [fold_left]. destruct a as [t|u|[]|[]]; repeat split.
Qed.
Theorem C51_three {T U V} {ZT : Zero T} {ZU : Zero U} {ZV : Zero V} (a0 : alt4 T U V Empty_set) ops :
  let s := run3 (created3 a0) ops in
  which3 s = alt_tag (held a0 ops) /\ sees (held a0 ops) (get3t s) (get3u s) (get3v s) Panicked.
Proof.
  destruct ops as [|a ops] using rev_ind; [destruct a0 as [t|u|v|[]]; repeat split|]. clear IHops.
  cbv zeta. unfold run3. rewrite held_snoc, fold_left_app. cbn [fold_left]. destruct a as [t|u|v|[]]; repeat split.
Qed.
Theorem C51_four {T U V W} {ZT : Zero T} {ZU : Zero U} {ZV : Zero V} {ZW : Zero W} (a0 : alt4 T U V W) ops :
  let s := run4 (created4 a0) ops in
  which4 s = alt_tag (held a0 ops) /\ sees (held a0 ops) (get4t s) (get4u s) (get4v s) (get4w s).
Proof.
  destruct ops as [|a ops] using rev_ind; [destruct a0 as [t|u|v|w]; repeat split|]. clear IHops.
  cbv zeta. unfold run4. rewrite held_snoc, fold_left_app. cbn [fold_left]. destruct a as [t|u|v|w]; repeat split.
Qed.
(** The zero value of each holds the zero T. *)
Theorem C51_zero_values {T U V W} {ZT : Zero T} {ZU : Zero U} {ZV : Zero V} {ZW : Zero W} :
  (zero2 : two T U) = created2 (AT zv) /\ (zero3 : three T U V) = created3 (AT zv) /\ (zero4 : four T U V W) = created4 (AT zv).
Proof. repeat split. Qed.

Lemma behaves {T} {ZT : Zero T} (isnil : T -> bool) (m : maybe T) (o : option T) :
  mpresent m = (match o with Some _ => true | None => false end) -> (forall t, o = Some t -> mv m = t) -> behaves_as isnil m o.
Proof.
  intros P M. destruct m as [v p]. simpl in *. subst p. unfold behaves_as, maybe_get, maybe_or_else, maybe_or_error, maybe_set_or_error. simpl.
  destruct o as [t|]; [rewrite (M t eq_refl)|]; repeat split; auto; try discriminate; congruence.
Qed.
(** Created by Of or Empty and changed by any history of Set, SetEmpty and SetOrError, a Maybe behaves in every
    observation as the option that history denotes: Set of a nil makes it empty, SetOrError keeps a present value. *)
Theorem C51_maybe {T} {ZT : Zero T} (isnil : T -> bool) (start : option T) (ops : list (mop T)) :
  let m0 := match start with Some t => maybe_of isnil t | None => maybe_empty end in
  let o0 := match start with Some t => some_of isnil t | None => None end in
  behaves_as isnil (fold_left (run_mop isnil) ops m0) (fold_left (spec_mop isnil) ops o0).
Proof.
  cbv zeta.
  assert (K : forall ops (m : maybe T) o, mpresent m = (match o with Some _ => true | None => false end) /\ (forall t, o = Some t -> mv m = t) ->
     behaves_as isnil (fold_left (run_mop isnil) ops m) (fold_left (spec_mop isnil) ops o)).
  { clear. induction ops as [|op ops IH]; intros m o (P & M); [apply behaves; auto|]. cbn [fold_left]. apply IH.
    assert (SO : forall t, mpresent (maybe_set isnil t m) = match some_of isnil t with Some _ => true | None => false end /\
                 (forall t', some_of isnil t = Some t' -> mv (maybe_set isnil t m) = t')).
    { intros t. unfold some_of. simpl. destruct (isnil t); simpl; split; congruence. }
    destruct op as [t| |t]; cbn [run_mop spec_mop].
    - apply SO.
    - simpl. split; [auto|discriminate].
    - unfold maybe_set_or_error. rewrite P. destruct o as [x|]; cbn [fst]; auto. }
  apply K. destruct start as [t|]; simpl; [|split; [auto|discriminate]]. unfold some_of. destruct (isnil t); simpl; split; congruence.
Qed.
(** Present panics exactly on nil and otherwise is the same as Of; First is Of of the first element, or Empty. *)
Theorem C51_present_first {T} {ZT : Zero T} (isnil : T -> bool) t (l : list T) :
  (isnil t = true -> maybe_present isnil t = Panicked) /\ (isnil t = false -> maybe_present isnil t = Done (maybe_of isnil t)) /\
  behaves_as isnil (maybe_first isnil l) (match l with [] => None | x :: _ => some_of isnil x end).
Proof.
  unfold maybe_present, maybe_of. split; [intros ->; auto|]. split; [intros ->; auto|].
  destruct l as [|x l]; apply behaves; simpl; auto; try discriminate; unfold some_of; destruct (isnil x); simpl; congruence.
Qed.
(** At every Go type the nil test is funcs.IsNilValue, which C68_is_nil_value characterises: so for a Go variable the
    Maybe is present iff the value last set is not nil. *)
Theorem C51_go_values env t p : var_ok env t p -> exists b, is_nil_value env (to_any t p) = Done b /\
  (mpresent (maybe_of (fun _ => b) p) = true <-> ~ any_nil env (to_any t p)).
Proof.
  intros V. destruct (C68_is_nil_value env t p V) as (b & E & B). exists b. split; auto. unfold maybe_of. simpl. rewrite <- B. destruct b; simpl; intuition congruence.
Qed.

(** Result: after every constructor that does not panic, exactly one of HasResult and HasError is true; with an error
    the value is the zero value; OfError(nil) and OfResultError(non-zero, error) panic. *)
Theorem C51_result {R} {ZR : Zero R} (iszero : R -> option bool) r e :
  (has_result (of_result r) = true /\ has_error (of_result r) = false /\ rr (of_result r) = r) /\
  (e = None -> of_error (ZR := ZR) e = Panicked) /\
  (forall x, of_error e = Done x -> has_error x = true /\ has_result x = false /\ re x = e /\ rr x = zv) /\
  (e = None -> of_result_error iszero r e = Done (of_result r)) /\
  (e <> None -> iszero r = Some true -> exists x, of_result_error iszero r e = Done x /\ has_error x = true /\ has_result x = false /\ re x = e /\ rr x = r) /\
  (e <> None -> iszero r = Some false -> of_result_error iszero r e = Panicked).
Proof.
  unfold has_result, has_error, of_error, of_result_error. split; [repeat split|]. split; [intros ->; auto|].
  split; [destruct e; intros x E; inversion E; subst; repeat split|]. split; [intros ->; reflexivity|].
  split; intros N Z; (destruct e as [e|]; [|congruence]); rewrite Z; [eexists; repeat split|reflexivity].
Qed.
(** Finding: when R is an interface type, OfResultError panics on (nil, error), although nil is the zero value: the
    reflection used to test for zero panics on a nil interface. *)
Theorem C51_finding_interface_result env t e : kind_of env t = Interface ->
  let r := PIface None in fits env t r /\ all_zero r /\ of_result_error (is_zero_var t) r (Some e) = Panicked.
Proof. intros K. split; [unfold fits; rewrite K; exact Logic.I|]. split; [right; right; reflexivity|reflexivity]. Qed.

Example C51_ex : let s := run3 (created3 (AU 4%Z)) [AT true; AV [1; 2]; AT false] : three bool Z (list nat) in
  which3 s = WT /\ get3t s = Done false /\ get3u s = Panicked /\ get3v s = Panicked.
Proof. repeat split. Qed.
Example C51_ex_maybe : let m := fold_left (run_mop (fun x => Z.eqb x 0)) [MSet 5%Z; MSetOrError 6%Z; MSet 0%Z; MSetOrError 7%Z] (maybe_of (fun x => Z.eqb x 0) 3%Z) in
  maybe_get m = Done 7%Z.
Proof. reflexivity. Qed.

(** * C70 *)
Section C70.
  Variables (env : tyenv) (zero_val : ty -> payload) (implements : ty -> ty -> bool).

  Lemma payload_maybe_id m : payload_maybe (maybe_payload m) = Done m.
  Proof. destruct m as [v p]. simpl. destruct p; reflexivity. Qed.

  Lemma ptrs_pointers n a : pointers env n (ptrs n (TMaybe a)) (TMaybe a).
  Proof. induction n; simpl; [constructor; discriminate|econstructor; [reflexivity|auto]]. Qed.

  Lemma get_maybe_type_ptrs n a fuel : n < fuel -> get_maybe_type env fuel (ptrs n (TMaybe a)) = Done (Some a).
  Proof. intros L. unfold get_maybe_type. rewrite (deref_type_pointers env n _ _ (ptrs_pointers n a) fuel L). reflexivity. Qed.

  Lemma safe_ptrs n a l h fuel w : n < fuel -> follows env h n (RVal (ptrs n (TMaybe a)) l) w ->
    safe_maybe_access env fuel h (RVal (ptrs n (TMaybe a)) l) = Done true.
  Proof.
    intros L F. unfold safe_maybe_access. cbn [is_valid negb type_rv obind]. rewrite get_maybe_type_ptrs by auto. cbn [obind kind_rv].
    destruct n as [|n]; [reflexivity|]. inversion F; subst. cbn [ptrs kind_of kind_eqb kind_num Nat.eqb negb is_nil_rv nil_kind].
    match goal with H : load h l = _ |- _ => rewrite H end. reflexivity.
  Qed.

  Lemma receiver_ptrs n a l l' h fuel m : n < fuel -> follows env h n (RVal (ptrs n (TMaybe a)) l) (RVal (TMaybe a) l') ->
    load h l' = maybe_payload m ->
    exists d, deref_value_max1 env fuel h (RVal (ptrs n (TMaybe a)) l) = Done d /\ maybe_receiver h d = Done (a, m).
  Proof.
    intros L F P. destruct n as [|n].
    - inversion F; subst. exists (RVal (TMaybe a) l'). destruct fuel; [lia|]. split; [reflexivity|]. cbn [maybe_receiver]. rewrite P, payload_maybe_id. reflexivity.
    - assert (TY : forall n m t l w, follows env h m (RVal (ptrs (m + n) t) l) w -> exists l', w = RVal (ptrs n t) l').
      { clear. intros n m. induction m as [|m IH]; intros t l w F; inversion F; subst; eauto. match goal with Q : elem env _ = Some _ |- _ => simpl in Q; injection Q as <- end. eauto. }
      apply follows_last in F as (p & q & u & c & F & E & L' & W). injection W as Wu Wl. subst u l'.
      destruct (TY 1 n (TMaybe a) l _ ltac:(rewrite Nat.add_1_r; exact F)) as (q' & Q). injection Q as -> <-.
      exists (RVal (TPtr (TMaybe a)) q). split.
      + replace fuel with (n + (fuel - n)) by lia. rewrite (max1_value_follow env h _ _ _ F eq_refl).
        eapply max1_value_last; eauto; [discriminate|lia].
      + cbn [maybe_receiver]. rewrite L'. cbn [load] in P. rewrite P, payload_maybe_id. reflexivity.
  Qed.

  (** For a Maybe reached through any number of non-nil pointers: GetMaybeType is its type argument, MaybeValueIsPresent
      is its Present, and GetMaybeValue is its value, or the invalid Value if it is empty. *)
  Theorem C70_read n a l l' h fuel m : n < fuel -> follows env h n (RVal (ptrs n (TMaybe a)) l) (RVal (TMaybe a) l') ->
    load h l' = maybe_payload m -> let v := RVal (ptrs n (TMaybe a)) l in
    get_maybe_type env fuel (ptrs n (TMaybe a)) = Done (Some a) /\
    maybe_value_is_present env fuel h v = Done (mpresent m) /\
    get_maybe_value env fuel h v = Done (if mpresent m then RVal a (Temp (mv m)) else RInvalid).
  Proof.
    intros L F P v. split; [apply get_maybe_type_ptrs; auto|].
    destruct (receiver_ptrs n a l l' h fuel m L F P) as (d & D & R).
    assert (E : maybe_value_is_present env fuel h v = Done (mpresent m)).
    { unfold maybe_value_is_present. unfold v. rewrite (safe_ptrs n a l h fuel _ L F). cbn [obind]. rewrite D. cbn [obind]. rewrite R. reflexivity. }
    split; auto. unfold get_maybe_value. rewrite E. cbn [obind]. destruct (mpresent m) eqn:PR; auto. unfold v. rewrite D. cbn [obind]. rewrite R. cbn [obind snd fst].
    unfold maybe_get. rewrite PR. reflexivity.
  Qed.

  Lemma direct_spec t a : directly_assignable env a t = true <-> t = a \/ declared_as env t a \/ declared_as env a t.
  Proof.
    unfold directly_assignable, declared_as. rewrite orb_true_iff, andb_true_iff, negb_true_iff, !ty_eqb_eq. split.
    - intros [E|[N E]]; [left; auto|]. apply andb_false_iff in N.
      destruct t as [k|u|k i|b|u|n], a as [k'|u'|k' i'|b'|u'|n']; cbn in N, E; destruct N as [N|N]; try discriminate; try (left; congruence); right;
        try (destruct (env n) eqn:En; try discriminate E; left; exists n; split; auto; injection E; intros; subst; eauto);
        try (destruct (env n') eqn:En; try discriminate E; right; exists n'; split; auto; injection E; intros; subst; eauto).
    - intros [E|[(n & -> & [(e & E & ->)|(k & i & E & ->)])|(n & -> & [(e & E & ->)|(k & i & E & ->)])]]; auto; right; cbn; rewrite E; auto.
  Qed.
  Lemma declared_kind t a : declared_as env t a -> kind_of env t = kind_of env a.
  Proof. intros (n & -> & [(e & E & ->)|(k & i & E & ->)]); cbn; rewrite E; auto. Qed.
  Lemma not_iface_to_any t p : var_ok env t p -> kind_of env t <> Interface -> to_any t p = Some (t, p).
  Proof. intros (F & _) K. destruct p; auto. exfalso. unfold fits in F. destruct (kind_of env t); auto. Qed.
  Lemma iface_payload t p : var_ok env t p -> kind_of env t = Interface -> exists d, p = PIface d.
  Proof. intros (F & _) K. unfold fits in F. rewrite K in F. destruct p; try tauto. eauto. Qed.
  (** If a type is declared as an interface type, or is one, then what the two store is the same. *)
  Lemma argument_assigned h t lv a q : var_ok env t (load h lv) -> assigned env implements t (load h lv) a q ->
    argument env implements h a (RVal t lv) = Done q /\ var_ok env a q.
  Proof.
    intros V A. unfold argument. inversion A; subst.
    - rewrite (proj2 (direct_spec a a)) by auto. auto.
    - rewrite (proj2 (direct_spec t a)) by auto. split; auto. destruct V as (F & G). split; auto. unfold fits in *.
      destruct H as [H|H]; apply declared_kind in H; [rewrite <- H|rewrite H]; exact F.
    - assert (directly_assignable env a t = false) as ->.
      { destruct (directly_assignable env a t) eqn:D; auto. apply direct_spec in D as [->|[D|D]]; [congruence| |]; apply declared_kind in D; congruence. }
      rewrite H, H1. cbn. rewrite (not_iface_to_any t _ V H0). split; auto. split; [unfold fits; rewrite H; exact Logic.I|].
      intros d E. injection E as <-. cbn. destruct V. auto.
    - match goal with K1 : kind_of env a = Interface, K2 : kind_of env t = Interface, I : implements t a = true |- _ =>
        rewrite K1, I; cbn; split; [destruct (directly_assignable env a t); congruence|];
        destruct V as (F & G); unfold var_ok, fits in *; rewrite K1; rewrite K2 in F; split; [exact Logic.I|]; intros d' E; apply G; congruence end.
  Qed.
  Lemma argument_not_assigned h t lv a : var_ok env t (load h lv) -> (forall q, ~ assigned env implements t (load h lv) a q) ->
    argument env implements h a (RVal t lv) = Panicked.
  Proof.
    intros V N. unfold argument. destruct (directly_assignable env a t) eqn:D.
    - exfalso. apply direct_spec in D as [->|D]; eapply N; [apply assigned_same|apply assigned_declared; auto].
    - destruct (kind_eqb (kind_of env a) Interface && implements t a) eqn:E; auto. exfalso. apply andb_true_iff in E as [E1 E2].
      apply kind_eqb_eq in E1. destruct (kind_eqb (kind_of env t) Interface) eqn:E3.
      + apply kind_eqb_eq in E3. destruct (iface_payload _ _ V E3) as (d & E4). eapply N. rewrite E4. apply assigned_other_interface; auto.
      + eapply N. apply assigned_interface; auto. intros E4. rewrite E4 in E3. discriminate.
  Qed.

  (** Setting it, through at least one pointer or in place, to a value that Go's assignment would accept: the Maybe is
      overwritten with what the assignment stores, exactly as its Set and SetEmpty methods do, and nothing else in memory
      changes.  With any other value, also the invalid one, SetMaybeValue panics (the documentation promises an error). *)
  Theorem C70_write n a l x h fuel m t lv q : n < fuel -> follows env h n (RVal (ptrs n (TMaybe a)) l) (RVal (TMaybe a) (At x)) ->
    h x = maybe_payload m -> let dst := RVal (ptrs n (TMaybe a)) l in
    (var_ok env t (load h lv) -> assigned env implements t (load h lv) a q ->
       exists b, set_maybe_value env implements fuel h dst (RVal t lv) = Done (hset h x (maybe_payload (maybe_set (fun _ => b) q m)), true) /\
         (b = true <-> any_nil env (to_any a q))) /\
    (var_ok env t (load h lv) -> (forall q, ~ assigned env implements t (load h lv) a q) ->
       set_maybe_value env implements fuel h dst (RVal t lv) = Panicked) /\
    set_maybe_value env implements fuel h dst RInvalid = Panicked /\
    set_maybe_value_empty env zero_val fuel h dst = Done (hset h x (maybe_payload (@maybe_set_empty _ (zero_val a) m)), true).
  Proof.
    intros L F P dst.
    assert (CA : negb (kind_eqb (kind_rv env dst) Pointer) && negb (can_addr dst) = false).
    { unfold dst. destruct n; [|reflexivity]. inversion F; subst. reflexivity. }
    assert (D : deref_value env fuel h dst = Done (RVal (TMaybe a) (At x))).
    { unfold dst. replace fuel with (n + (fuel - n)) by lia. rewrite (deref_value_follow env h _ _ _ F). apply deref_value_end; [discriminate|lia]. }
    assert (SM : forall val, set_maybe_value env implements fuel h dst val =
      obind (argument env implements h a val) (fun p => obind (is_nil_value env (to_any a p)) (fun n => Done (hset h x (maybe_payload (maybe_set (fun _ => n) p m)), true)))).
    { intros val. unfold set_maybe_value, dst. rewrite (safe_ptrs n a l h fuel _ L F). cbn [obind negb]. fold dst. rewrite CA, D. cbn [obind].
      destruct (argument env implements h a val); cbn [obind]; auto. rewrite P, payload_maybe_id. auto. }
    rewrite !SM. split; [|split; [|split]].
    - intros V A. destruct (argument_assigned h t lv a q V A) as (E1 & V1). rewrite E1. cbn [obind].
      destruct (C68_is_nil_value env a q V1) as (b & E & B). exists b. rewrite E. auto.
    - intros V A. rewrite argument_not_assigned; auto.
    - auto.
    - unfold set_maybe_value_empty, dst. rewrite (safe_ptrs n a l h fuel _ L F). cbn [obind negb]. fold dst. rewrite CA, D. cbn [obind].
      rewrite P, payload_maybe_id. reflexivity.
  Qed.

  (** On anything else, the invalid Value, a value whose type is no pointers to a Maybe, a nil first pointer, nothing
      panics: not present, the invalid Value, and an error without any change; likewise an unaddressable Maybe cannot be set. *)
  Theorem C70_not_maybe n t b l h fuel val v : pointers env n t b -> n < fuel -> fits env t (load h l) ->
    (v = RInvalid \/ v = RVal t l /\ ((forall a, b <> TMaybe a) \/ load h l = PPtr None)) ->
    maybe_value_is_present env fuel h v = Done false /\ get_maybe_value env fuel h v = Done RInvalid /\
    set_maybe_value env implements fuel h v val = Done (h, false) /\ set_maybe_value_empty env zero_val fuel h v = Done (h, false).
  Proof.
    intros P L F V. assert (E : safe_maybe_access env fuel h v = Done false).
    { destruct V as [->|(-> & V)]; [reflexivity|]. unfold safe_maybe_access, get_maybe_type. cbn [is_valid negb type_rv obind].
      rewrite (deref_type_pointers env n t b P fuel L). cbn [obind]. destruct b as [k|u|k i|bk|u|i]; auto.
      destruct V as [V|V]; [exfalso; apply (V u); auto|]. cbn [kind_rv is_nil_rv]. unfold fits in F. rewrite V in *.
      destruct (kind_of env t); try tauto; reflexivity. }
    unfold get_maybe_value, maybe_value_is_present, set_maybe_value, set_maybe_value_empty. rewrite E. auto.
  Qed.
  Theorem C70_unaddressable a m h fuel val : 0 < fuel ->
    let v := RVal (TMaybe a) (Temp (maybe_payload m)) in
    set_maybe_value env implements fuel h v val = Done (h, false) /\ set_maybe_value_empty env zero_val fuel h v = Done (h, false).
  Proof. intros L. destruct fuel; [lia|]. split; reflexivity. Qed.
End C70.

(** Finding: behind a non-nil first pointer, a nil pointer to a Maybe makes all four panic (the documentation says false,
    invalid Value, error); and SetMaybeValue panics instead of returning an error when the value is not a T. *)
Theorem C70_finding_inner_nil (env : tyenv) (zero_val : ty -> payload) implements a val : let h := fun _ : nat => PPtr None in
  let v := RVal (TPtr (TPtr (TMaybe a))) (Temp (PPtr (Some 0))) in
  maybe_value_is_present env 3 h v = Panicked /\ get_maybe_value env 3 h v = Panicked /\
  set_maybe_value env implements 3 h v val = Panicked /\ set_maybe_value_empty env zero_val 3 h v = Panicked.
Proof. repeat split. Qed.
Theorem C70_finding_wrong_type : let env := fun _ => UBasic Int in let h := fun _ : nat => maybe_payload (Maybe (PScalar 3) true) in
  set_maybe_value env (fun _ _ => false) 2 h (RVal (TPtr (TMaybe (TBasic Int))) (Temp (PPtr (Some 0)))) (RVal (TBasic String) (Temp (PScalar 1))) = Panicked.
Proof. reflexivity. Qed.
(** an int into a Maybe[any] stores the interface with it; a [] int declared type and its definition are interchangeable *)
Example C70_ex_interface : let env := fun _ => UOther Slice 0 in let h := fun _ : nat => maybe_payload (Maybe (PIface None) false) in
  let any := TOther Interface 0 in
  assigned env (fun _ _ => true) (TBasic Int) (PScalar 5) any (PIface (Some (TBasic Int, PScalar 5))) /\
  assigned env (fun _ _ => true) (TNamed 7) (PNilable None) (TOther Slice 0) (PNilable None) /\
  exists h', set_maybe_value env (fun _ _ => true) 2 h (RVal (TPtr (TMaybe any)) (Temp (PPtr (Some 0)))) (RVal (TBasic Int) (Temp (PScalar 5))) = Done (h', true) /\
    get_maybe_value env 2 h' (RVal (TMaybe any) (At 0)) = Done (RVal any (Temp (PIface (Some (TBasic Int, PScalar 5))))).
Proof.
  cbn. split; [apply assigned_interface; [reflexivity|discriminate|reflexivity]|]. split; [|eexists; split; reflexivity].
  apply assigned_declared. left. exists 7. split; auto. right. exists Slice, 0. auto.
Qed.
Example C70_ex : let env := fun _ => UBasic Int in
  let h := fun a => match a with 0 => PPtr (Some 1) | _ => maybe_payload (Maybe (PScalar 3) true) end in
  let v := RVal (ptrs 2 (TMaybe (TBasic Int))) (Temp (PPtr (Some 0))) in
  follows env h 2 v (RVal (TMaybe (TBasic Int)) (At 1)) /\
  get_maybe_value env 3 h v = Done (RVal (TBasic Int) (Temp (PScalar 3))).
Proof. split; [|reflexivity]. econstructor; [reflexivity..|]. econstructor; [reflexivity..|]. constructor. Qed.
