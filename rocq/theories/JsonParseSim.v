(** The parser behaves on every iterator of tokens as it does on the plain list of the tokens that iterator still yields. *)
From Verif Require Import Base GoMap Iter IterSpec IterProofs Readers Stream Union Rest Json JsonLex JsonParse JsonSim JsonSpec JsonTokProofs JsonParseProofs.
Open Scope go_scope.
Open Scope nat_scope.

Section SimBind2.
  Context {I1 I2 J1 J2 A B : Type} (R : I1 -> I2 -> Prop) (Q : J1 -> J2 -> Prop).
  Definition sim2 (f1 : nat -> nat -> I1 -> outcome (A * I1)) (f2 : I2 -> outcome (A * I2)) : Prop :=
    forall s1 s2 a s2', R s1 s2 -> f2 s2 = Done (a, s2') -> exists s1', R s1' s2' /\ ok2 (fun d m => f1 d m s1) a s1'.
  Lemma sim2_bind (f1 : nat -> nat -> I1 -> outcome (A * I1)) (f2 : I2 -> outcome (A * I2)) K1 K2 s1 s2 b s2' :
    sim2 f1 f2 -> R s1 s2 ->
    (forall r t1 t2, R t1 t2 -> K2 (r, t2) = Done (b, s2') ->
       exists s1' : J1, Q s1' (s2' : J2) /\ ok2 (fun d m => K1 d m (r, t1)) (b : B) s1') ->
    obind (f2 s2) K2 = Done (b, s2') ->
    exists s1', Q s1' s2' /\ ok2 (fun d m => obind (f1 d m s1) (K1 d m)) b s1'.
  Proof.
    intros SI HR HK H. destruct (f2 s2) as [[r t2]| |] eqn:E; cbn in H; try discriminate.
    destruct (SI _ _ _ _ HR E) as (t1 & HR1 & HOK). destruct (HK _ _ _ HR1 H) as (s1' & HQ & HO).
    exists s1'. split; auto. eapply ok2_bind; eauto.
  Qed.
End SimBind2.

Section ParseSim.
  Context {I1 I2 : Type} (R : I1 -> I2 -> Prop) (nx1 : stepfn I1 token) (nx2 : stepfn I2 token) (un1 : I1 -> token -> I1) (un2 : I2 -> token -> I2).
  Hypothesis NX : sim R nx1 nx2.
  Hypothesis UN : forall s1 s2 v, R s1 s2 -> R (un1 s1 v) (un2 s2 v).

  Lemma NX2 k : sim2 R (fun _ m => nx1 m) (nx2 k).
  Proof. intros s1 s2 a s2' HR H. destruct (NX _ _ _ _ _ HR H) as (s1' & HR' & [n O]). exists s1'. split; auto. exists n. intros d m _ L. apply O; auto. Qed.

  Ltac ret2 := match goal with H : Done (?a, ?b) = Done (_, _) |- _ =>
    injection H; clear H; intros; subst; eexists; split; [|apply ok2_ret]; eauto end.
  Ltac go1 base :=
    cbn [fst] in *;
    match goal with
    | H : Done _ = Done _ |- _ => ret2
    | |- obind (nx2 _ _) _ = Done _ -> _ => eapply sim2_bind; [apply NX2|eassumption|]; intros [? [?|]] ? ? ? ?
    | |- obind _ _ = Done _ -> _ => eapply sim2_bind; [base|eauto|]; intros [? [?|]] ? ? ? ?
    | H : obind _ _ = Done _ |- _ => revert H
    | H : (if ?b then _ else _) = Done _ |- _ => destruct b eqn:?
    | H : match ttyp ?t with _ => _ end = Done _ |- _ => destruct (ttyp t) eqn:?
    | H : match mget ?a ?b ?c with _ => _ end = Done _ |- _ => destruct (mget a b c) eqn:?
    | H : (let v := _ in _) = Done _ |- _ => cbv zeta in H; cbv zeta
    end.
  Ltac go base := repeat (go1 base).

  Section PV.
    Variables (pv1 : nat -> stepfn I1 value) (pv2 : stepfn I2 value).
    Hypothesis PV : forall k, sim2 R pv1 (pv2 k).

    Lemma sim_obj : forall k obj, sim2 R (fun d m => obj_loop nx1 un1 (pv1 d) m obj) (obj_loop nx2 un2 pv2 k obj).
    Proof.
      induction k as [|k IH]; intros obj s1 s2 a s2' HR H; [discriminate|].
      enough (exists s1', R s1' s2' /\ ok2 (fun d m => obj_loop nx1 un1 (pv1 d) (S m) obj s1) a s1') as (s1' & X & O).
      { exists s1'. split; auto. apply ok2_S. exact O. }
      cbn [obj_loop] in *. go ltac:(apply PV). eapply IH; eauto.
    Qed.
    Lemma sim_object k : sim2 R (fun d m => parse_object nx1 un1 (pv1 d) m) (parse_object nx2 un2 pv2 k).
    Proof. intros s1 s2 a s2' HR H. unfold parse_object in *. go fail; eapply sim_obj; eauto. Qed.

    Definition R2 (a : bool * I1) (b : bool * I2) : Prop := fst a = fst b /\ R (snd a) (snd b).
    Lemma sim_array k : sim2 R2 (fun d m => array_gen nx1 un1 (pv1 d) m) (array_gen nx2 un2 pv2 k).
    Proof.
      intros [b s1] [b2 s2] a s2' [E HR] H. cbn in E, HR. subst b2. unfold array_gen in *. destruct b; go ltac:(apply PV); split; auto.
    Qed.
    Definition R3 (a : impl (bool * I1) value) (b : impl (bool * I2) value) : Prop :=
      fn_live a = fn_live b /\ R2 (src a) (src b) /\ buffer a = buffer b /\ last_err a = last_err b.
    Lemma sim_array_next k : sim2 R3 (fun d m => next (array_gen nx1 un1 (pv1 d)) m) (next (array_gen nx2 un2 pv2) k).
    Proof.
      intros [lv s1 b le] [lv2 s2 b2 le2] a s2' (E1 & HR & E2 & E3) H. cbn in *. subst lv2 b2 le2. unfold next in *. cbn [buffer fn_live src last_err] in *.
      destruct (nth_error b (length b - 1)); [injection H as <- <-; eexists; split; [|apply ok2_ret]; unfold R3; auto|].
      destruct lv; [|injection H as <- <-; eexists; split; [|apply ok2_ret]; unfold R3; auto].
      revert H. eapply (sim2_bind R2 R3 (fun d m => array_gen nx1 un1 (pv1 d) m)); [apply sim_array|exact HR|]. intros [v [e|]] t1 t2 HT H; injection H as <- <-;
        (eexists; split; [|apply ok2_ret]; unfold R3; auto).
    Qed.
    Lemma sim_pull {A} body (onerr : A -> err -> ret (list value)) k : forall loop acc s1 s2 a s2', R3 s1 s2 ->
      pull_loop (next (array_gen nx2 un2 pv2)) body onerr loop k acc s2 = Done (a, s2') ->
      exists s1', R3 s1' s2' /\ exists n, forall d l m, n <= d -> n <= l -> n <= m ->
        pull_loop (next (array_gen nx1 un1 (pv1 d))) body onerr l m acc s1 = Done (a, s1').
    Proof.
      induction loop as [|loop IH]; intros acc s1 s2 a s2' HR H; [discriminate|]. cbn [pull_loop] in H.
      destruct (next (array_gen nx2 un2 pv2) k s2) as [[[v [e|]] t2]| |] eqn:E; cbn [obind] in H; try discriminate;
        destruct (sim_array_next k _ _ _ _ HR E) as (t1 & HT & [n O]).
      - injection H as <- <-. exists t1. split; auto. exists (S n). intros d [|l] m D L M; [lia|]. cbn [pull_loop]. rewrite O by lia. reflexivity.
      - destruct (body acc v) as [[a'|r]| |] eqn:EB; cbn [obind] in H; try discriminate.
        + destruct (IH _ _ _ _ _ HT H) as (s1' & HS & n2 & O2). exists s1'. split; auto. exists (S (n + n2)). intros d [|l] m D L M; [lia|]. cbn [pull_loop].
          rewrite O by lia. cbn [obind]. rewrite EB. cbn [obind]. apply O2; lia.
        + injection H as <- <-. exists t1. split; auto. exists (S n). intros d [|l] m D L M; [lia|]. cbn [pull_loop]. rewrite O by lia. cbn [obind]. rewrite EB. reflexivity.
    Qed.
    Lemma sim_collect k : sim2 R (fun d m => collect_array nx1 un1 (pv1 d) m) (collect_array nx2 un2 pv2 k).
    Proof.
      intros s1 s2 a s2' HR H. unfold collect_array in H. unfold next at 1 in H. cbn [ofIter buffer length nth_error Nat.sub fn_live src] in H. unfold st_to_slice in H. cbv beta iota in H.
      destruct (pull_loop _ _ _ k k [] (parse_array s2)) as [[[v oe] t2]| |] eqn:E; cbn [obind] in H; try discriminate.
      destruct (sim_pull _ _ k k [] (parse_array s1) (parse_array s2) _ _ ltac:(unfold R3, R2; cbn; auto) E) as (t1 & (_ & (_ & HT) & _) & n & O).
      exists (snd (src t1)). split.
      - destruct oe; cbn in H; injection H as <- <-; exact HT.
      - exists n. intros d m D M. unfold collect_array. unfold next at 1. cbn [ofIter buffer length nth_error Nat.sub fn_live src]. unfold st_to_slice. cbv beta iota. rewrite O by lia. cbn [obind].
        destruct oe; cbn in H |- *; injection H as <- <-; reflexivity.
    Qed.
  End PV.

  Lemma sim_parse_value d k : sim2 R (fun d' m => parse_value nx1 un1 d' m) (parse_value nx2 un2 d k).
  Proof.
    revert k. induction d as [|d IH]; intros k s1 s2 a s2' HR H; [discriminate|].
    enough (exists s1', R s1' s2' /\ ok2 (fun d m => parse_value nx1 un1 (S d) m s1) a s1') as (s1' & X & O).
    { exists s1'. split; auto. apply ok2_S1. exact O. }
    cbn [parse_value] in *. revert H. eapply sim2_bind; [apply NX2|eassumption|]. intros r t1 t2 HT H. cbv zeta in *. destruct (ttyp (fst r)) eqn:TT; try (ret2; fail).
    - revert H. eapply (sim2_bind R R (fun d m => collect_array nx1 un1 (parse_value nx1 un1 d) m) (collect_array nx2 un2 (parse_value nx2 un2 d) k)); [apply (sim_collect _ _ IH)|apply UN; exact HT|]. intros [? [?|]] ? ? ? ?; ret2.
    - eapply (sim_object _ _ IH); [|exact H]. apply UN; exact HT.
    - destruct (numberToValue (ANumString (tval (fst r)))) as [v [e|]]; [discriminate|]. ret2.
  Qed.

  Lemma sim_doc : sim R (parse_doc nx1 un1) (parse_doc nx2 un2).
  Proof.
    intros k s1 s2 a s2' HR H.
    assert (G : exists s1', R s1' s2' /\ ok2 (fun d f =>
      let! (r, i1) := nx1 f s1 in
      match r with
      | (_, Some e) => Done ((zv, Some (eoi_or errEmptyDocument e)), i1)
      | (firstTok, None) =>
          match ttyp firstTok with
          | tOBrace | tOBracket =>
              let! (r, i2) := parse_value nx1 un1 d f (un1 i1 firstTok) in
              match r with
              | (_, Some e) => Done ((zv, Some e), i2)
              | (doc, None) => Done ((doc, None), i2)
              end
          | _ => Done ((zv, Some errObjectOrArrayRequired), i1)
          end
      end) a s1').
    { unfold parse_doc, parseValue in H. go ltac:(apply sim_parse_value). }
    destruct G as (s1' & X & [n O]). exists s1'. split; auto. exists n. intros m L. exact (O m m L L).
  Qed.
End ParseSim.
