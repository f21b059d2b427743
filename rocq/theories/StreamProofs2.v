From Coq Require Import Permutation Sorting ZifyBool.
From Verif Require Import Base Iter IterSpec IterProofs IterGen IterGenProofs GoInt GoMap Slice Conv ConvSpec ConvProofs
  MathInt MathIntSpec MathIntProofs Stream StreamSpec StreamProofs.
Open Scope nat_scope.

(** ** ExpandSlices *)
Lemma split_empties {T} (ls : list (list T)) :
  exists emps rest, ls = emps ++ rest /\ Forall (fun x => x = []) emps /\
    (rest = [] \/ exists x xs r, rest = (x :: xs) :: r).
Proof.
  induction ls as [|[|x xs] ls (emps & rest & -> & F & R)].
  - exists [], []. auto.
  - exists ([] :: emps), rest. auto.
  - exists [], ((x :: xs) :: emps ++ rest). split; auto. split; auto. right; eauto.
Qed.

Section Expand.
  Context {S T : Type} `{ZT : Zero T}.
  Variable nx : stepfn S (list T).

  Definition exp_body : unit -> list T -> outcome (unit + (list T + err)) :=
    fun _ slc => Done (if 0 <? length slc then inr (inl slc) else inl tt).

  Lemma exp_feeds emps : Forall (fun x => x = []) emps -> feeds exp_body tt emps tt.
  Proof. induction 1 as [|x l -> F IH]; [constructor|]. econstructor; [reflexivity|exact IH]. Qed.

  Lemma exp_in slc idx s v : nth_error slc idx = Some v ->
    returns (st_expand_slices nx) (slc, idx, s) (v, None) (slc, idx + 1, s).
  Proof.
    intros N. exists 0. intros m _. unfold st_expand_slices.
    assert (idx < length slc) by (apply nth_error_Some; congruence).
    destruct (Nat.eqb_spec (length slc) 0); [lia|]. destruct (Nat.eqb_spec idx (length slc)); [lia|]. cbn [orb].
    rewrite N. reflexivity.
  Qed.

  Lemma exp_drain slc s : forall k idx, length slc = idx + k ->
    emits (st_expand_slices nx) (slc, idx, s) (skipn idx slc) (slc, length slc, s).
  Proof.
    induction k as [|k IH]; intros idx H.
    - rewrite skipn_all2 by lia. replace idx with (length slc) by lia. constructor.
    - destruct (nth_error slc idx) as [v|] eqn:N; [|apply nth_error_None in N; lia].
      assert (Sk : skipn idx slc = v :: skipn (idx + 1) slc).
      { clear IH H. revert idx N. induction slc as [|a slc IH]; intros [|idx] N; simpl in *; try discriminate.
        - inversion N; reflexivity.
        - apply IH; auto. }
      rewrite Sk. econstructor; [apply exp_in; eauto|]. apply IH. lia.
  Qed.

  Lemma exp_next slc s emps s1 x xs s2 :
    emits nx s emps s1 -> Forall (fun x => x = []) emps -> returns nx s1 (x :: xs, None) s2 ->
    returns (st_expand_slices nx) (slc, length slc, s) (x, None) (x :: xs, 1, s2).
  Proof.
    intros E F R. destruct (pull_stop nx exp_body (fun _ e => inr e) _ _ _ _ _ _ _ (inl (x :: xs)) (exp_feeds _ F) E R eq_refl) as [n P].
    exists n. intros m Hm. unfold st_expand_slices. rewrite Nat.eqb_refl, Bool.orb_true_r.
    change (fun (_ : unit) (slc0 : list T) => _) with exp_body. rewrite P by lia. reflexivity.
  Qed.

  Lemma exp_fail slc s emps s1 e s2 :
    emits nx s emps s1 -> Forall (fun x => x = []) emps -> fails nx s1 e s2 ->
    fails (st_expand_slices nx) (slc, length slc, s) e ([], length slc, s2).
  Proof.
    intros E F R. destruct (pull_err nx exp_body (fun _ e => inr e) _ _ _ _ _ _ _ (exp_feeds _ F) E R) as [n P].
    exists zv, n. intros m Hm. unfold st_expand_slices. rewrite Nat.eqb_refl, Bool.orb_true_r.
    change (fun (_ : unit) (slc0 : list T) => _) with exp_body. rewrite P by lia. reflexivity.
  Qed.

  Lemma concat_empties (emps : list (list T)) rest : Forall (fun x => x = []) emps -> concat (emps ++ rest) = concat rest.
  Proof. induction 1 as [|x l -> F IH]; simpl; auto. Qed.

  Lemma exp_run : forall k ls slc s s1 e s2, length ls <= k ->
    emits nx s ls s1 -> fails nx s1 e s2 ->
    exists st' st'', emits (st_expand_slices nx) (slc, length slc, s) (concat ls) st' /\ fails (st_expand_slices nx) st' e st''.
  Proof.
    induction k as [|k IH]; intros ls slc s s1 e s2 Hk E F;
    destruct (split_empties ls) as (emps & rest & -> & Fe & [->|(x & xs & r & ->)]);
    rewrite concat_empties by auto; rewrite ?app_nil_r in E.
    - eexists _, _. split; [constructor|eapply exp_fail; eauto].
    - rewrite app_length in Hk. simpl in Hk. lia.
    - eexists _, _. split; [constructor|eapply exp_fail; eauto].
    - apply emits_app_inv in E as (s3 & E1 & E2). inversion E2 as [|? ? s4 ? ? R E3]; subst.
      rewrite app_length in Hk. simpl in Hk.
      destruct (IH r (x :: xs) s4 s1 e s2 ltac:(lia) E3 F) as (st' & st'' & A & B).
      exists st', st''. split; [|exact B]. simpl concat. cbn [app].
      econstructor; [eapply exp_next; eauto|]. eapply emits_app; [|exact A].
      pose proof (exp_drain (x :: xs) s4 (length xs) 1 eq_refl) as D. exact D.
  Qed.

  Lemma expand_yields s ls e : yields nx s ls e ->
    yields (next (st_expand_slices nx)) (ofIter ([], 0, s)) (concat ls) e.
  Proof.
    intros Y. apply yields_fails in Y as (s1 & s2 & E & F).
    destruct (exp_run (length ls) ls [] s s1 e s2 (le_n _) E F) as (st' & st'' & A & B). eapply ofIter_yields; eauto.
  Qed.
End Expand.

(** ** ReduceToMap, ExpandMaps *)
Section Maps2.
  Context {S K V : Type} `{ZK : Zero K} `{ZV : Zero V}.

  Lemma to_map_fold (eqb : K -> K -> bool) (Eq : eq_decides eqb) (l : list (K * V)) : forall m, mok m ->
    mok (fold_left (fun m kv => mset eqb m (fst kv) (snd kv)) l m) /\
    forall k, mget eqb (fold_left (fun m kv => mset eqb m (fst kv) (snd kv)) l m) k =
              match last_value eqb l k with Some v => Some v | None => mget eqb m k end.
  Proof.
    induction l as [|[a b] l IH]; intros m O; simpl; [auto|].
    destruct (IH (mset eqb m a b) (mset_ok eqb Eq m a b O)) as [A B]. split; [exact A|]. intros k.
    rewrite B, mget_set by auto. destruct (last_value eqb l k); auto. destruct (eqb k a); reflexivity.
  Qed.

  Lemma to_map_yields (eqb : K -> K -> bool) (Eq : eq_decides eqb) (nx : stepfn S (K * V)) s l :
    yields nx s l EOI ->
    exists m, yields (next (st_to_map eqb nx)) (ofIter (false, s)) [m] EOI /\ mok m /\
      forall k, mget eqb m k = last_value eqb l k.
  Proof.
    intros Y. apply yields_fails in Y as (s1 & s2 & E & F).
    destruct (to_map_fold eqb Eq l [] ltac:(constructor)) as [O G].
    eexists. split; [|split; [exact O|]].
    - eapply one_shot with (st2 := (true, s2)).
      + destruct (pull_err nx (fun m kv => Done (inl (mset eqb m (fst kv) (snd kv))))
          (fun (m : list (K * V)) e => match e with EOI => (m, None) | _ => ([], Some e) end) _ _ _ _ _ _ _
          (foldl_feeds (fun m kv => mset eqb m (fst kv) (snd kv)) [] l) E F) as [n P].
        exists n. intros m Hm. unfold st_to_map. rewrite P by lia. reflexivity.
      + exists [], 0. reflexivity.
    - intros k. rewrite G. simpl. destruct (last_value eqb l k); reflexivity.
  Qed.

  Lemma to_map_err (eqb : K -> K -> bool) (nx : stepfn S (K * V)) s l e :
    yields nx s l e -> e <> EOI -> yields (next (st_to_map eqb nx)) (ofIter (false, s)) [] e.
  Proof.
    intros Y Ne. apply yields_fails in Y as (s1 & s2 & E & F). eapply ofIter_yields; [constructor|].
    instantiate (1 := (true, s2)).
    destruct (pull_err nx (fun m kv => Done (inl (mset eqb m (fst kv) (snd kv))))
          (fun (m : list (K * V)) e => match e with EOI => (m, None) | _ => ([], Some e) end) _ _ _ _ _ _ _
          (foldl_feeds (fun m kv => mset eqb m (fst kv) (snd kv)) [] l) E F) as [n P].
    exists [], n. intros m Hm. unfold st_to_map. rewrite P by lia. destruct e; try reflexivity; congruence.
  Qed.

  (** ExpandMaps *)
  Variables (nilK : K -> bool) (nilV : V -> bool).
  Variable nx : stepfn S (list (K * V)).
  Let fine (kv : K * V) := nilK (fst kv) = false /\ nilV (snd kv) = false.

  Definition em_body : unit -> list (K * V) -> outcome (unit + ((K * V) * list (K * V) + err)) :=
    fun _ m => Done (match m with kv :: rest => inr (inl (kv, rest)) | [] => inl tt end).

  Lemma em_feeds emps : Forall (fun x => x = []) emps -> feeds em_body tt emps tt.
  Proof. induction 1 as [|x l -> F IH]; [constructor|]. econstructor; [reflexivity|exact IH]. Qed.

  Definition em_idle (m : option (list (K * V))) : Prop := m = None \/ m = Some [].

  Lemma em_next m s emps s1 x xs s2 : em_idle m ->
    emits nx s emps s1 -> Forall (fun x => x = []) emps -> returns nx s1 (x :: xs, None) s2 -> fine x ->
    returns (st_expand_maps nilK nilV nx) (m, s) (x, None) (Some xs, s2).
  Proof.
    intros I E F R [F1 F2]. destruct (pull_stop nx em_body (fun _ e => inr e) _ _ _ _ _ _ _ (inl (x, xs)) (em_feeds _ F) E R eq_refl) as [n P].
    exists n. intros k Hk. unfold st_expand_maps. change (fun (_ : unit) (m : list (K * V)) => _) with em_body.
    destruct I as [->| ->]; rewrite P by lia; cbn [obind]; rewrite F1, F2; reflexivity.
  Qed.

  Lemma em_fail m s emps s1 e s2 : em_idle m ->
    emits nx s emps s1 -> Forall (fun x => x = []) emps -> fails nx s1 e s2 ->
    fails (st_expand_maps nilK nilV nx) (m, s) e (None, s2).
  Proof.
    intros I E F R. destruct (pull_err nx em_body (fun _ e => inr e) _ _ _ _ _ _ _ (em_feeds _ F) E R) as [n P].
    exists zv, n. intros k Hk. unfold st_expand_maps. change (fun (_ : unit) (m : list (K * V)) => _) with em_body.
    destruct I as [->| ->]; rewrite P by lia; reflexivity.
  Qed.

  Lemma em_drain l s : Forall fine l -> emits (st_expand_maps nilK nilV nx) (Some l, s) l (Some [], s).
  Proof.
    induction 1 as [|x l [F1 F2] F IH]; [constructor|]. econstructor; [|exact IH].
    exists 0. intros m _. unfold st_expand_maps. rewrite F1, F2. reflexivity.
  Qed.

  Lemma em_run : forall k ls m s s1 e s2, length ls <= k -> em_idle m -> Forall fine (concat ls) ->
    emits nx s ls s1 -> fails nx s1 e s2 ->
    exists st' st'', emits (st_expand_maps nilK nilV nx) (m, s) (concat ls) st' /\ fails (st_expand_maps nilK nilV nx) st' e st''.
  Proof.
    induction k as [|k IH]; intros ls m s s1 e s2 Hk Hm Fi E F;
    destruct (split_empties ls) as (emps & rest & -> & Fe & [->|(x & xs & r & ->)]);
    rewrite concat_empties in * by auto; rewrite ?app_nil_r in E.
    - eexists _, _. split; [constructor|eapply em_fail; eauto].
    - rewrite app_length in Hk. simpl in Hk. lia.
    - eexists _, _. split; [constructor|eapply em_fail; eauto].
    - apply emits_app_inv in E as (s3 & E1 & E2). inversion E2 as [|? ? s4 ? ? R E3]; subst.
      rewrite app_length in Hk. simpl in Hk. simpl concat in Fi. cbn [app] in Fi. inversion Fi as [|? ? Fx Fr]; subst.
      apply Forall_app in Fr as [Fxs Fr].
      destruct (IH r (Some []) s4 s1 e s2 ltac:(lia) ltac:(right; reflexivity) Fr E3 F) as (st' & st'' & A & B).
      exists st', st''. split; [|exact B]. simpl concat. cbn [app].
      econstructor; [eapply em_next; eauto|]. eapply emits_app; [|exact A]. apply em_drain; auto.
  Qed.

  Lemma expand_maps_yields s ls e : yields nx s ls e -> Forall fine (concat ls) ->
    yields (next (st_expand_maps nilK nilV nx)) (ofIter (None, s)) (concat ls) e.
  Proof.
    intros Y Fi. apply yields_fails in Y as (s1 & s2 & E & F).
    destruct (em_run (length ls) ls None s s1 e s2 (le_n _) ltac:(left; reflexivity) Fi E F) as (st' & st'' & A & B).
    eapply ofIter_yields; eauto.
  Qed.
End Maps2.

(** ** Distinct and Duplicate *)
Section Dist.
  Context {T : Type} (eqb : T -> T -> bool) (Eq : eq_decides eqb).
  Arguments distinct_cb : simpl never.
  Arguments duplicate_cb : simpl never.
  Arguments Nat.ltb : simpl never.
  Arguments Nat.min : simpl never.

  Lemma distinct_spec l : forall vals seen,
    (forall x, mget eqb vals x = if existsb (eqb x) seen then Some true else None) ->
    fst (filter_acc (distinct_cb eqb) vals l) = firsts eqb seen l.
  Proof.
    induction l as [|x l IH]; intros vals seen I; cbn [filter_acc firsts seconds]; auto.
    assert (D : distinct_cb eqb vals x = if existsb (eqb x) seen then (false, vals) else (true, mset eqb vals x true)).
    { unfold distinct_cb. rewrite I. destruct (existsb (eqb x) seen); reflexivity. }
    rewrite D. clear D. destruct (existsb (eqb x) seen) eqn:Ex.
    - simpl. specialize (IH vals seen I). destruct (filter_acc (distinct_cb eqb) vals l). simpl in *. auto.
    - simpl. specialize (IH (mset eqb vals x true) (x :: seen)).
      destruct (filter_acc (distinct_cb eqb) (mset eqb vals x true) l). simpl in *. rewrite IH; auto.
      intros y. rewrite mget_set by auto. simpl. destruct (eqb y x); simpl; auto.
  Qed.

  Lemma count_of_cons x y l : count_of eqb x (y :: l) = (if eqb x y then 1 else 0) + count_of eqb x l.
  Proof. unfold count_of. simpl. destruct (eqb x y); reflexivity. Qed.

  Lemma duplicate_spec l : forall vals seen,
    (forall x, mget eqb vals x = if count_of eqb x seen =? 0 then None else Some (Nat.min 3 (count_of eqb x seen))) ->
    fst (filter_acc (duplicate_cb eqb) vals l) = seconds eqb seen l.
  Proof.
    induction l as [|x l IH]; intros vals seen I; cbn [filter_acc firsts seconds]; auto.
    set (c := count_of eqb x seen) in *.
    assert (D : duplicate_cb eqb vals x = (c =? 1, if Nat.min 3 c <? 3
      then mset eqb vals x (if Nat.min 3 c <? 3 then Nat.min 3 c + 1 else Nat.min 3 c) else vals)).
    { unfold duplicate_cb. rewrite I. fold c.
      replace (match (if c =? 0 then None else Some (Nat.min 3 c)) with Some n => n | None => 0 end) with (Nat.min 3 c)
        by (destruct (Nat.eqb_spec c 0); [lia|reflexivity]).
      f_equal. destruct (Nat.ltb_spec (Nat.min 3 c) 3); destruct (Nat.eqb_spec c 1); apply Nat.eqb_eq || apply Nat.eqb_neq; lia. }
    rewrite D. clear D.
    specialize (IH (if Nat.min 3 c <? 3
      then mset eqb vals x (if Nat.min 3 c <? 3 then Nat.min 3 c + 1 else Nat.min 3 c) else vals) (x :: seen)).
    destruct (filter_acc (duplicate_cb eqb) _ l) as [us c2]. simpl in IH |- *.
    rewrite IH; [destruct (c =? 1); reflexivity|]. clear IH. intros y. rewrite count_of_cons.
    destruct (eqb y x) eqn:Q.
    - apply Eq in Q. subst y. fold c. destruct (Nat.ltb_spec (Nat.min 3 c) 3).
      + rewrite mget_set, eqb_refl by auto. simpl. f_equal. lia.
      + rewrite I. fold c. destruct (Nat.eqb_spec c 0); [lia|]. simpl. f_equal. lia.
    - simpl. destruct (Nat.ltb_spec (Nat.min 3 c) 3); [|apply I]. rewrite mget_set, Q by auto. apply I.
  Qed.

  (** the specification functions say what they should *)
  Lemma firsts_facts l : forall seen,
    NoDup (firsts eqb seen l) /\ forall x, In x (firsts eqb seen l) <-> (In x l /\ ~ In x seen).
  Proof.
    induction l as [|x l IH]; intros seen; simpl; [split; [constructor|tauto]|].
    destruct (existsb (eqb x) seen) eqn:Ex.
    - destruct (IH seen) as [A B]. split; auto. intros y. rewrite B. apply existsb_In in Ex; auto. split; [tauto|].
      intros [[<-|H] N]; tauto.
    - assert (Nx : ~ In x seen). { intros I. apply (existsb_In eqb Eq) in I. congruence. }
      destruct (IH (x :: seen)) as [A B]. split.
      + constructor; auto. rewrite B. simpl. tauto.
      + intros y. simpl. rewrite B. simpl. split.
        * intros [->|[H N]]; tauto.
        * intros [[->|H] N]; [tauto|]. destruct (eqb_spec eqb Eq x y); [auto|]. right. split; auto. intros [?|?]; auto.
  Qed.

  Lemma count_of_0 x l : count_of eqb x l = 0 <-> ~ In x l.
  Proof.
    induction l as [|y l IH]; [simpl; tauto|]. rewrite count_of_cons. simpl. destruct (eqb_spec eqb Eq x y) as [->|N].
    - split; [lia|tauto].
    - simpl. rewrite IH. split; [intros H [?|?]; auto|tauto].
  Qed.

  Lemma seconds_facts l : forall seen,
    NoDup (seconds eqb seen l) /\
    forall x, In x (seconds eqb seen l) <-> (count_of eqb x seen <= 1 /\ 2 <= count_of eqb x seen + count_of eqb x l).
  Proof.
    induction l as [|x l IH]; intros seen.
    - simpl. split; [constructor|]. intros x. unfold count_of. simpl. lia.
    - simpl. destruct (IH (x :: seen)) as [A B].
      assert (B' : forall y, In y (seconds eqb (x :: seen) l) <->
        ((if eqb y x then 1 else 0) + count_of eqb y seen <= 1 /\
         2 <= (if eqb y x then 1 else 0) + count_of eqb y seen + count_of eqb y l)).
      { intros y. rewrite B, count_of_cons. tauto. }
      clear B. destruct (Nat.eqb_spec (count_of eqb x seen) 1) as [Q|Q].
      + split.
        * constructor; auto. rewrite B', eqb_refl by auto. lia.
        * intros y. simpl. rewrite B', count_of_cons. destruct (eqb_spec eqb Eq y x) as [->|N].
          -- split; [intros _; lia|auto].
          -- simpl. split; [intros [<-|H]; [congruence|auto]|auto].
      + split; auto. intros y. rewrite B', count_of_cons. destruct (eqb_spec eqb Eq y x) as [->|N]; lia.
  Qed.
End Dist.

(** ** Generator *)
Lemma generator_fresh {W F} (gen : W -> F * W) fn w :
  generator gen (fn, w) false = Done (fst (gen w), (Some (fst (gen w)), snd (gen w))).
Proof. unfold generator. simpl. destruct (gen w). reflexivity. Qed.

(** ** Folds: Count, Sum, Max, Min *)
Lemma cast_cong k z : exists q, cast k z = (z + q * 2 ^ num_bits k)%Z.
Proof.
  unfold cast. destruct (is_signed k).
  - apply wrapS_cong. destruct k; simpl; lia.
  - apply wrapU_cong. destruct k; simpl; lia.
Qed.

Lemma cast_shift k z q : cast k (z + q * 2 ^ num_bits k) = cast k z.
Proof.
  unfold cast. destruct (is_signed k).
  - apply wrapS_shift. destruct k; simpl; lia.
  - apply wrapU_shift. destruct k; simpl; lia.
Qed.

Lemma cast_add k a b : cast k (cast k a + b) = cast k (a + b).
Proof.
  destruct (cast_cong k a) as [q ->]. rewrite <- (cast_shift k (a + b) q). f_equal. ring.
Qed.

Lemma sum_fold k l : forall x, fold_left (fun a b => cast k (a + b)) l (cast k x) = cast k (x + zsum l).
Proof.
  induction l as [|y l IH]; intros x; simpl; [f_equal; ring|].
  rewrite cast_add, IH. f_equal. ring.
Qed.

Lemma sum_fold' k x l : in_type k x -> fold_left (fun a b => cast k (a + b)) l x = cast k (zsum (x :: l)).
Proof. intros H. rewrite <- (cast_id k x H) at 1. rewrite sum_fold. reflexivity. Qed.

Lemma count_fold {T} (l : list T) : forall x,
  fold_left (fun c (_ : T) => wrapS 64 (c + 1)) l (wrapS 64 x) = wrapS 64 (x + Z.of_nat (length l)).
Proof.
  induction l as [|y l IH]; intros x; cbn [fold_left length]; [f_equal; lia|].
  rewrite wrapS_add_l by lia. rewrite IH. f_equal. lia.
Qed.

Lemma max_fold {T} (ltb : T -> T -> bool) (O : strict_total ltb) l : forall x,
  let m := fold_left (fun a b => if ltb b a then a else b) l x in
  In m (x :: l) /\ forall y, In y (x :: l) -> ltb m y = false.
Proof.
  destruct O as (Ir & Tr & To).
  assert (AS : forall x y, ltb x y = true -> ltb y x = false).
  { intros x y H. destruct (ltb y x) eqn:E; auto. pose proof (Tr x y x H E) as H0. rewrite Ir in H0. discriminate. }
  assert (NT : forall a b c, ltb b a = false -> ltb c b = false -> ltb c a = false).
  { intros a b c H1 H2. destruct (ltb c a) eqn:E; auto. destruct (To b c) as [H|[->|H]].
    - rewrite (Tr b c a H E) in H1. discriminate.
    - congruence.
    - congruence. }
  induction l as [|b l IH]; intros x; cbn [fold_left].
  - split; [left; auto|]. intros y [<-|[]]. apply Ir.
  - specialize (IH (if ltb b x then x else b)). cbn zeta in *.
    set (m := fold_left (fun a b => if ltb b a then a else b) l (if ltb b x then x else b)) in *. destruct IH as [I1 I2].
    split.
    + destruct (ltb b x); simpl in *; tauto.
    + intros y Hy. destruct (ltb b x) eqn:Q.
      * destruct Hy as [<-|[<-|Hy]]; [apply I2; left; auto| |apply I2; right; auto].
        apply (NT _ x); [apply AS; auto|]. apply I2. left; auto.
      * destruct Hy as [<-|[<-|Hy]]; [|apply I2; left; auto|apply I2; right; auto].
        apply (NT _ b); [exact Q|]. apply I2. left; auto.
Qed.

Lemma min_fold {T} (ltb : T -> T -> bool) (O : strict_total ltb) l : forall x,
  let m := fold_left (fun a b => if ltb a b then a else b) l x in
  In m (x :: l) /\ forall y, In y (x :: l) -> ltb y m = false.
Proof.
  intros x. assert (O' : strict_total (fun a b => ltb b a)).
  { destruct O as (Ir & Tr & To). repeat split; intros; eauto. destruct (To b a) as [|[|]]; auto. }
  exact (max_fold (fun a b => ltb b a) O' l x).
Qed.

(** ** Averages *)
Section Avg.
  Context {S : Type}.
  Variable nx : stepfn S Z.
  Variable k : ikind.

  Lemma sums_fit_in l : sums_fit k l -> in_type k (zsum l).
  Proof. intros H. apply (H l []). rewrite app_nil_r. reflexivity. Qed.

  Lemma zsum_app a b : zsum (a ++ b) = (zsum a + zsum b)%Z.
  Proof. unfold zsum. induction a; simpl; lia. Qed.

  Lemma zero_in : in_type k 0.
  Proof. unfold in_type. destruct k; simpl; lia. Qed.

  Lemma sums_fit_snoc l v : sums_fit k (l ++ [v]) -> sums_fit k l /\ in_type k (zsum l + v).
  Proof.
    intros H. split.
    - intros l1 l2 ->. apply (H l1 (l2 ++ [v])). rewrite app_assoc. reflexivity.
    - specialize (H (l ++ [v]) []). rewrite app_nil_r in H. specialize (H eq_refl). rewrite zsum_app in H.
      replace (zsum [v]) with v in H by (unfold zsum; simpl; lia). exact H.
  Qed.

  Definition avg_body (add : ikind -> Z -> Z -> option err * Z) (wr : Z -> Z) :
    Z * Z -> Z -> outcome ((Z * Z) + ((Z * Z) * err + err)) :=
    fun a val => let '(sum, count) := a in
       Done (match add k val sum with
             | (Some e, _) => inr (inr e)
             | (None, sum') => inl (sum', wr (count + 1)%Z)
             end).

  (** the common part of AvgInt and AvgUint, abstract in the checked addition *)
  Lemma avg_feeds add wr l :
    (forall a b, in_type k a -> in_type k b -> checked k (a + b) (add k a b)) ->
    Forall (in_type k) l -> sums_fit k l -> (forall i, (i <= length l)%nat -> wr (Z.of_nat i) = Z.of_nat i) ->
    feeds (avg_body add wr) (0, 0)%Z l (zsum l, Z.of_nat (length l)).
  Proof.
    intros A. induction l as [|v l IH] using rev_ind; intros Fl Sf W.
    - simpl. constructor.
    - apply Forall_app in Fl as [Fl Fv]. inversion Fv; subst.
      apply sums_fit_snoc in Sf as [Sf I].
      assert (W' : forall i, (i <= length l)%nat -> wr (Z.of_nat i) = Z.of_nat i).
      { intros i Hi. apply W. rewrite app_length. simpl. lia. }
      eapply feeds_app; [apply IH; auto|]. econstructor; [|constructor].
      unfold avg_body. destruct (A v (zsum l)) as [C _]; auto. { apply sums_fit_in; auto. }
      rewrite C by (rewrite Z.add_comm; auto). f_equal. f_equal. rewrite zsum_app, app_length. cbn [length].
      replace (zsum [v]) with v by (unfold zsum; simpl; lia). f_equal; [lia|].
      replace (Z.of_nat (length l) + 1)%Z with (Z.of_nat (length l + 1)) by lia. apply W. rewrite app_length. simpl. lia.
  Qed.
End Avg.

Lemma to_int_val s t v : in_type s v -> in_type t v -> conv_or_zero s t v = Done v.
Proof.
  intros Hs Ht. unfold conv_or_zero. destruct (to_int_exact s t v 0 Hs) as (r & -> & X & _). simpl. rewrite X; auto.
Qed.

Lemma rq_le k n d : is_signed k = true -> in_type k n -> (0 < d)%Z -> in_type k (rq n d).
Proof.
  intros Hk Hn Hd. destruct (Z.eq_dec n 0) as [->|N0].
  { assert (rq 0 d = 0%Z). { unfold rq. rewrite Z.rem_0_l, Z.quot_0_l by lia. simpl. destruct (Z.leb_spec (Z.abs d) 0); lia. }
    rewrite H. auto. }
  destruct (Z.eq_dec d 1) as [->|N1].
  { assert (rq n 1 = n). { unfold rq. rewrite Z.rem_1_r, Z.quot_1_r. simpl. reflexivity. } rewrite H. auto. }
  pose proof (rq_bounds n d ltac:(lia) ltac:(lia) N0). unfold in_type in *. rewrite Hk in *.
  assert (3 <= 2 ^ (num_bits k - 1))%Z by (destruct k; vm_compute; discriminate). lia.
Qed.

Lemma rq_le_u k n d : is_signed k = false -> in_type k n -> (0 < d)%Z -> in_type k (rq n d).
Proof.
  intros Hk Hn Hd. destruct (Z.eq_dec n 0) as [->|N0].
  { assert (rq 0 d = 0%Z). { unfold rq. rewrite Z.rem_0_l, Z.quot_0_l by lia. simpl. destruct (Z.leb_spec (Z.abs d) 0); lia. }
    rewrite H. auto. }
  destruct (Z.eq_dec d 1) as [->|N1].
  { assert (rq n 1 = n). { unfold rq. rewrite Z.rem_1_r, Z.quot_1_r. simpl. reflexivity. } rewrite H. auto. }
  pose proof (rq_bounds n d ltac:(lia) ltac:(lia) N0). unfold in_type in *. rewrite Hk in *.
  assert (0 <= Z.quot n d)%Z by (apply Z.quot_pos; lia).
  assert (0 <= rq n d)%Z. { unfold rq. destruct (_ <=? _)%Z; [|lia]. destruct (Z.leb_spec 0 (Z.quot n d)); lia. } lia.
Qed.

Section AvgRuns.
  Context {S : Type}.
  Variable nx : stepfn S Z.
  Variable k : ikind.

  Lemma avg_empty s : yields nx s [] EOI -> yields (next (st_avg_int k nx)) (ofIter s) [] EOI.
  Proof.
    intros Y. apply yields_fails in Y as (s1 & s2 & E & [v [n Hn]]). inversion E; subst.
    eapply ofIter_yields; [constructor|]. exists 0%Z, (Datatypes.S n). intros m Hm. unfold st_avg_int.
    destruct m; [lia|]. cbn [pull_loop]. rewrite Hn by lia. reflexivity.
  Qed.

  Lemma avg_uempty s : yields nx s [] EOI -> yields (next (st_avg_uint k nx)) (ofIter s) [] EOI.
  Proof.
    intros Y. apply yields_fails in Y as (s1 & s2 & E & [v [n Hn]]). inversion E; subst.
    eapply ofIter_yields; [constructor|]. exists 0%Z, (Datatypes.S n). intros m Hm. unfold st_avg_uint.
    destruct m; [lia|]. cbn [pull_loop]. rewrite Hn by lia. reflexivity.
  Qed.

  Lemma pull_err_eventually {A R} (body : A -> Z -> outcome (A + R)) onerr a l a' s s1 e s2 :
    feeds body a l a' -> emits nx s l s1 -> fails nx s1 e s2 ->
    exists n, forall m, (n <= m)%nat -> pull_loop nx body onerr m m a s = Done (onerr a' e, s2).
  Proof. intros F E G. destruct (pull_err nx body onerr _ _ _ _ _ _ _ F E G) as [n P]. exists n. intros; apply P; auto. Qed.

  Lemma avg_int_ok s l : is_signed k = true -> Forall (in_type k) l -> sums_fit k l ->
    l <> [] -> (Z.of_nat (length l) < 2 ^ 63)%Z -> yields nx s l EOI ->
    yields (next (st_avg_int k nx)) (ofIter s) [rq (zsum l) (Z.of_nat (length l))] EOI.
  Proof.
    intros Hk Fl Sf Ne Len Y. destruct Y as (s1 & E & K). apply stuck_fails in K as (s2 & F & K). apply stuck_fails in K as (s3 & F3 & _).
    eapply one_shot with (st1 := s2) (st2 := s3).
    - destruct (pull_err_eventually (avg_body k add_int (wrapS 64)) (fun a e => inl (a, e)) (0, 0)%Z l (zsum l, Z.of_nat (length l)) s s1 EOI s2) as [n P]; auto.
      { apply avg_feeds; auto.
        - intros; apply add_int_checked; auto.
        - intros i Hi. apply wrap64_id. lia. }
      exists n. intros m Hm. unfold st_avg_int.
      change (fun (a : Z * Z) (val : Z) => _) with (avg_body k add_int (wrapS 64)). rewrite P by lia. cbn [obind].
      assert (Hc : (0 < Z.of_nat (length l))%Z) by (destruct l; [congruence|simpl; lia]).
      destruct (Z.eqb_spec (Z.of_nat (length l)) 0); [lia|].
      pose proof (sums_fit_in k l Sf) as Hi.
      assert (H64 : in_type KInt64 (zsum l)). { pose proof (in_type_64 k _ Hk Hi). unfold in_type; cbn; lia. }
      rewrite to_int_val by auto. cbn [obind]. rewrite div_rq; auto; try lia.
      2: { unfold in_type; cbn; change (2 ^ 63)%Z with 9223372036854775808%Z in Len; lia. }
      cbn [snd]. rewrite to_int_val; [reflexivity| |apply rq_le; auto]. apply rq_le; auto.
    - destruct F3 as [v [n Hn]]. exists 0%Z, (Datatypes.S n). intros m Hm. unfold st_avg_int.
      destruct m; [lia|]. cbn [pull_loop]. rewrite Hn by lia. reflexivity.
  Qed.

  Lemma avg_uint_ok s l : is_signed k = false -> Forall (in_type k) l -> sums_fit k l ->
    l <> [] -> (Z.of_nat (length l) < 2 ^ 64)%Z -> yields nx s l EOI ->
    yields (next (st_avg_uint k nx)) (ofIter s) [rq (zsum l) (Z.of_nat (length l))] EOI.
  Proof.
    intros Hk Fl Sf Ne Len Y. destruct Y as (s1 & E & K). apply stuck_fails in K as (s2 & F & K). apply stuck_fails in K as (s3 & F3 & _).
    eapply one_shot with (st1 := s2) (st2 := s3).
    - destruct (pull_err_eventually (avg_body k add_uint (wrapU 64)) (fun a e => inl (a, e)) (0, 0)%Z l (zsum l, Z.of_nat (length l)) s s1 EOI s2) as [n P]; auto.
      { apply avg_feeds; auto.
        - intros; apply add_uint_checked; auto.
        - intros i Hi. apply wrapU_id. unfold inU, maxU. lia. }
      exists n. intros m Hm. unfold st_avg_uint.
      change (fun (a : Z * Z) (val : Z) => _) with (avg_body k add_uint (wrapU 64)). rewrite P by lia. cbn [obind].
      assert (Hc : (0 < Z.of_nat (length l))%Z) by (destruct l; [congruence|simpl; lia]).
      destruct (Z.eqb_spec (Z.of_nat (length l)) 0); [lia|].
      pose proof (sums_fit_in k l Sf) as Hi.
      assert (H64 : in_type KUint64 (zsum l)). { unfold in_type in *. rewrite Hk in Hi. destruct k; try discriminate; cbn in *; lia. }
      rewrite to_int_val by auto. cbn [obind].
      assert (Hl : in_type KUint64 (Z.of_nat (length l))).
      { unfold in_type; cbn; change (2 ^ 64)%Z with 18446744073709551616%Z in Len; lia. }
      destruct (div_unsigned_ok KUint64 (zsum l) (Z.of_nat (length l)) 0 eq_refl H64 Hl ltac:(lia)) as (q & -> & Q).
      assert (q = rq (zsum l) (Z.of_nat (length l))).
      { eapply rounds_to_unique; [|exact Q|apply rq_rounds]; try lia. intros (B & _). unfold in_type in H64. cbn in H64. nia. }
      subst q. cbn [snd]. rewrite to_int_val; [reflexivity| |apply rq_le_u; auto]. apply rq_le_u; auto.
    - destruct F3 as [v [n Hn]]. exists 0%Z, (Datatypes.S n). intros m Hm. unfold st_avg_uint.
      destruct m; [lia|]. cbn [pull_loop]. rewrite Hn by lia. reflexivity.
  Qed.

  (** first running sum outside the type *)
  Lemma avg_int_overflow s l v s' : is_signed k = true -> Forall (in_type k) (l ++ [v]) -> sums_fit k l ->
    (Z.of_nat (length l) < 2 ^ 63)%Z -> ~ in_type k (zsum (l ++ [v])) -> emits nx s (l ++ [v]) s' ->
    returns (next (st_avg_int k nx)) (ofIter s)
      (0%Z, Some (if (0 <=? zsum (l ++ [v]))%Z then OverflowErr else UnderflowErr))
      (dead s' (if (0 <=? zsum (l ++ [v]))%Z then OverflowErr else UnderflowErr)).
  Proof.
    intros Hk Fl Sf Len N E. apply emits_snoc_inv in E as (s1 & E1 & R). apply Forall_app in Fl as [Fl Fv]. inversion Fv; subst.
    rewrite zsum_app in *. replace (zsum [v]) with v in * by (unfold zsum; simpl; lia).
    apply next_error. 
    destruct (add_int_checked k v (zsum l) Hk H1 (sums_fit_in k l Sf)) as (C1 & C2 & C3).
    destruct (add_int k v (zsum l)) as [e r] eqn:A. cbn [fst] in *. rewrite (Z.add_comm v) in *.
    assert (e = Some (if (0 <=? zsum l + v)%Z then OverflowErr else UnderflowErr)).
    { destruct (Z.leb_spec 0 (zsum l + v)); [apply C2|apply C3]; auto. }
    subst e.
    destruct (pull_stop nx (avg_body k add_int (wrapS 64)) (fun a e => inl (a, e)) (0, 0)%Z l (zsum l, Z.of_nat (length l)) s s1 v s'
      (inr (if (0 <=? zsum l + v)%Z then OverflowErr else UnderflowErr))) as [n P]; auto.
    { apply avg_feeds; auto.
      - intros; apply add_int_checked; auto.
      - intros i Hi. apply wrap64_id. lia. }
    { unfold avg_body. rewrite A. reflexivity. }
    exists 0%Z, n. intros m Hm. unfold st_avg_int.
    change (fun (a : Z * Z) (val : Z) => _) with (avg_body k add_int (wrapS 64)). rewrite P by lia. reflexivity.
  Qed.

  Lemma avg_uint_overflow s l v s' : is_signed k = false -> Forall (in_type k) (l ++ [v]) -> sums_fit k l ->
    (Z.of_nat (length l) < 2 ^ 64)%Z -> ~ in_type k (zsum (l ++ [v])) -> emits nx s (l ++ [v]) s' ->
    returns (next (st_avg_uint k nx)) (ofIter s) (0%Z, Some OverflowErr) (dead s' OverflowErr).
  Proof.
    intros Hk Fl Sf Len N E. apply emits_snoc_inv in E as (s1 & E1 & R). apply Forall_app in Fl as [Fl Fv]. inversion Fv; subst.
    rewrite zsum_app in *. replace (zsum [v]) with v in * by (unfold zsum; simpl; lia).
    apply next_error. pose proof (sums_fit_in k l Sf) as Hi.
    destruct (add_uint_checked k v (zsum l) Hk H1 Hi) as (C1 & C2 & C3).
    destruct (add_uint k v (zsum l)) as [e r] eqn:A. cbn [fst] in *. rewrite (Z.add_comm v) in *.
    assert (e = Some OverflowErr).
    { apply C2; auto. unfold in_type in *. rewrite Hk in *. lia. }
    subst e.
    destruct (pull_stop nx (avg_body k add_uint (wrapU 64)) (fun a e => inl (a, e)) (0, 0)%Z l (zsum l, Z.of_nat (length l)) s s1 v s'
      (inr OverflowErr)) as [n P]; auto.
    { apply avg_feeds; auto.
      - intros; apply add_uint_checked; auto.
      - intros i Hi'. apply wrapU_id. unfold inU, maxU. lia. }
    { unfold avg_body. rewrite A. reflexivity. }
    exists 0%Z, n. intros m Hm. unfold st_avg_uint.
    change (fun (a : Z * Z) (val : Z) => _) with (avg_body k add_uint (wrapU 64)). rewrite P by lia. reflexivity.
  Qed.
End AvgRuns.

Lemma next_panics {S T} `{Zero T} (fn : stepfn S T) s : panics fn s -> panics (next fn) (ofIter s).
Proof. intros [n P]. exists n. intros m Hm. unfold next, ofIter. simpl. rewrite P by auto. reflexivity. Qed.
