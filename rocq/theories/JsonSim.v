(** The code that reads from an iterator behaves on every iterator as it does on the plain list of the values that iterator
    still yields. *)
From Verif Require Import Base Iter IterSpec IterProofs Stream Writer JsonLex.
Open Scope go_scope.
Open Scope nat_scope.

(** The iterator whose state is the list of values to come; [e] is the error after them. *)
Definition list_nx {T} `{Zero T} (e : err) : stepfn (list T) T := fun _ l =>
  match l with
  | [] => Done ((zv, Some e), [])
  | x :: r => Done ((x, None), r)
  end.
Definition list_un {T} (l : list T) (v : T) : list T := v :: l.

Definition ok1 {A I} (f : nat -> outcome (A * I)) (a : A) (s : I) : Prop := exists n, forall m, n <= m -> f m = Done (a, s).

Definition sim {I1 I2 A} (R : I1 -> I2 -> Prop) (f1 : nat -> I1 -> outcome (A * I1)) (f2 : nat -> I2 -> outcome (A * I2)) : Prop :=
  forall k s1 s2 a s2', R s1 s2 -> f2 k s2 = Done (a, s2') ->
  exists s1', R s1' s2' /\ ok1 (fun m => f1 m s1) a s1'.

Lemma ok_ret {A I} (a : A) (s : I) : ok1 (fun _ => Done (a, s)) a s.
Proof. exists 0; auto. Qed.

Lemma ok_S {A I} (f : nat -> outcome (A * I)) a s : ok1 (fun m => f (S m)) a s -> ok1 f a s.
Proof. intros [n H]. exists (S n). intros [|m] L; [lia|]. apply H. lia. Qed.

Lemma ex_ok_S {A I} (P : I -> Prop) (f : nat -> outcome (A * I)) a :
  (exists s, P s /\ ok1 (fun m => f (S m)) a s) -> exists s, P s /\ ok1 f a s.
Proof. intros (s & HP & H). exists s. split; auto. apply ok_S; auto. Qed.

Lemma ok_eq {A I} (f g : nat -> outcome (A * I)) a s : (forall m, g m = f m) -> ok1 f a s -> ok1 g a s.
Proof. intros E [n H]. exists n. intros m L. rewrite E. auto. Qed.

Lemma ok_bind {A B I} (f : nat -> outcome A) (K : nat -> A -> outcome (B * I)) r b s' :
  (exists n, forall m, n <= m -> f m = Done r) ->
  ok1 (fun m => K m r) b s' -> ok1 (fun m => obind (f m) (K m)) b s'.
Proof.
  intros [n H] [n2 H2]. exists (n + n2). intros m L. rewrite H by lia. cbn. apply H2. lia.
Qed.

Section SimBind.
  Context {I1 I2 J1 J2 A B : Type} (R : I1 -> I2 -> Prop) (Q : J1 -> J2 -> Prop).
  Lemma sim_bind_step (f1 : nat -> I1 -> outcome (A * I1)) (f2 : nat -> I2 -> outcome (A * I2)) K1 K2 k s1 s2 b s2' :
    sim R f1 f2 -> R s1 s2 ->
    (forall r t1 t2, R t1 t2 -> K2 (r, t2) = Done (b, s2') ->
       exists s1' : J1, Q s1' (s2' : J2) /\ ok1 (fun m => K1 m (r, t1)) (b : B) s1') ->
    obind (f2 k s2) K2 = Done (b, s2') ->
    exists s1', Q s1' s2' /\ ok1 (fun m => obind (f1 m s1) (K1 m)) b s1'.
  Proof.
    intros SI HR HK H. destruct (f2 k s2) as [[r t2]| |] eqn:E; cbn in H; try discriminate.
    destruct (SI _ _ _ _ _ HR E) as (t1 & HR1 & HOK). destruct (HK _ _ _ HR1 H) as (s1' & HQ & HO).
    exists s1'. split; auto. eapply ok_bind; eauto.
  Qed.
End SimBind.

Ltac sim_ret :=
  match goal with H : Done (?a, ?b) = Done (_, _) |- _ =>
    injection H; clear H; intros; subst; eexists; split; [|apply ok_ret]; eauto end.

Section LexSim.
  Context {I1 I2 : Type} (R : I1 -> I2 -> Prop) (nx1 : stepfn I1 Z) (nx2 : stepfn I2 Z) (un1 : I1 -> Z -> I1) (un2 : I2 -> Z -> I2).
  Hypothesis NX : sim R nx1 nx2.
  Hypothesis UN : forall s1 s2 v, R s1 s2 -> R (un1 s1 v) (un2 s2 v).

  Ltac go1 base :=
    cbn [fst] in *;
    match goal with
    | H : Done _ = Done _ |- _ => sim_ret
    | |- obind (nx2 _ _) _ = Done _ -> _ => eapply sim_bind_step; [exact NX|eassumption|]; intros [? [?|]] ? ? ? ?
    | |- obind _ _ = Done _ -> _ => eapply sim_bind_step; [base|eauto|]; intros [? [?|]] ? ? ? ?
    | H : obind _ _ = Done _ |- _ => revert H
    | H : (if ?b then _ else _) = Done _ |- _ => destruct b
    | H : match ?e with EOI => _ | _ => _ end = Done _ |- _ => destruct e
    | H : (let v := _ in _) = Done _ |- _ => cbv zeta in H; cbv zeta
    end.
  Ltac go base := repeat (go1 base).

  Lemma sim_read_hex n : forall h, sim R (read_hex nx1 n h) (read_hex nx2 n h).
  Proof.
    induction n as [|n IH]; intros h k s1 s2 a s2' HR; cbn [read_hex]; intros H; [sim_ret|].
    go fail; try (eapply IH; eassumption).
  Qed.

  Lemma sim_lex_unicode : sim R (lex_unicode nx1) (lex_unicode nx2).
  Proof.
    intros k s1 s2 a s2' HR H. unfold lex_unicode in *. go ltac:(apply sim_read_hex).
  Qed.

  Lemma sim_lex_escape v : sim R (lex_escape nx1 v) (lex_escape nx2 v).
  Proof.
    intros k s1 s2 a s2' HR H. unfold lex_escape in *.
    destruct (v =? 117)%Z eqn:E117. 2: go fail.
    apply Z.eqb_eq in E117. subst v. cbn in H |- *. eapply sim_lex_unicode; eauto.
  Qed.

  Ltac loop IH :=
    let k := fresh "k" in
    intros k; induction k as [|k IH]; intros; [discriminate|]; apply ex_ok_S;
    match goal with H : _ = Done _ |- _ => cbn [str_loop num_exp_loop num_frac_loop num_int_loop word_loop ws_loop] in H end; cbn [str_loop num_exp_loop num_frac_loop num_int_loop word_loop ws_loop].

  Lemma sim_str_loop : forall k str s1 s2 a s2', R s1 s2 -> str_loop nx2 k str s2 = Done (a, s2') ->
    exists s1', R s1' s2' /\ ok1 (fun m => str_loop nx1 m str s1) a s1'.
  Proof. loop IH. go ltac:(apply sim_lex_escape); eapply IH; eauto. Qed.

  Lemma sim_lexString : sim R (lexString nx1) (lexString nx2).
  Proof.
    intros k s1 s2 a s2' HR H. unfold lexString in *. go fail; eapply sim_str_loop; eauto.
  Qed.

  Ltac num := unfold num_die, num_tok in *.

  Lemma sim_exp_loop : forall k str hd s1 s2 a s2', R s1 s2 -> num_exp_loop nx2 un2 k str hd s2 = Done (a, s2') ->
    exists s1', R s1' s2' /\ ok1 (fun m => num_exp_loop nx1 un1 m str hd s1) a s1'.
  Proof. loop IH. num. go fail; eapply IH; eauto. Qed.

  Lemma sim_exp k str s1 s2 a s2' : R s1 s2 -> num_exp nx2 un2 k str s2 = Done (a, s2') ->
    exists s1', R s1' s2' /\ ok1 (fun m => num_exp nx1 un1 m str s1) a s1'.
  Proof. intros HR H. unfold num_exp in *. num. go fail; eapply sim_exp_loop; eauto. Qed.

  Lemma sim_frac_loop : forall k str hd s1 s2 a s2', R s1 s2 -> num_frac_loop nx2 un2 k str hd s2 = Done (a, s2') ->
    exists s1', R s1' s2' /\ ok1 (fun m => num_frac_loop nx1 un1 m str hd s1) a s1'.
  Proof. loop IH. num. go fail; try (eapply IH; eauto; fail); eapply sim_exp; eauto. Qed.

  Lemma sim_int_loop : forall k str hd lz s1 s2 a s2', R s1 s2 -> num_int_loop nx2 un2 k str hd lz s2 = Done (a, s2') ->
    exists s1', R s1' s2' /\ ok1 (fun m => num_int_loop nx1 un1 m str hd lz s1) a s1'.
  Proof. loop IH. num. go fail; try (eapply IH; eauto; fail); try (eapply sim_frac_loop; eauto; fail); eapply sim_exp; eauto. Qed.

  Lemma sim_lexNumber : sim R (lexNumber nx1 un1) (lexNumber nx2 un2).
  Proof.
    intros k s1 s2 a s2' HR H. unfold lexNumber in *. go fail; eapply sim_int_loop; eauto.
  Qed.

  Lemma sim_word_loop : forall k str s1 s2 a s2', R s1 s2 -> word_loop nx2 un2 k str s2 = Done (a, s2') ->
    exists s1', R s1' s2' /\ ok1 (fun m => word_loop nx1 un1 m str s1) a s1'.
  Proof. loop IH. go fail; eapply IH; eauto. Qed.

  Lemma sim_ws_loop : sim R (ws_loop nx1) (ws_loop nx2).
  Proof. loop IH. go fail; eapply IH; eauto. Qed.

  Lemma sim_lex : sim R (lex nx1 un1) (lex nx2 un2).
  Proof.
    intros k s1 s2 a s2' HR H. unfold lex in *.
    go ltac:(apply sim_ws_loop); first [eapply sim_lexString; eauto|eapply sim_lexNumber; eauto|eapply sim_word_loop; eauto].
  Qed.
End LexSim.
