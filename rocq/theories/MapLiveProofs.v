(** Iterating over a map that changes. *)
From Coq Require Import Permutation.
From Verif Require Import Base GoMap MapLive MapLiveSpec.
Open Scope go_scope.
Open Scope nat_scope.

Section Without.
  Context {K : Type} (eqb : K -> K -> bool).
  Hypothesis EQ : eq_decides eqb.
  Lemma in_without k x l : In x (without eqb k l) <-> In x l /\ x <> k.
  Proof.
    unfold without. rewrite filter_In. destruct (eqb_spec eqb EQ k x) as [->|N]; cbn; [split; [intros [_ H]; discriminate|tauto]|]. split; intros [H _]; auto.
  Qed.
  Lemma without_length k l : length (without eqb k l) <= length l.
  Proof. unfold without. induction l as [|x l IH]; cbn; auto. destruct (eqb k x); cbn; lia. Qed.
  Lemma without_shorter k l : In k l -> length (without eqb k l) < length l.
  Proof.
    unfold without. induction l as [|x l IH]; cbn; [tauto|]. intros [->|H].
    - rewrite (eqb_refl eqb EQ). cbn. pose proof (without_length k l) as W. unfold without in W. lia.
    - specialize (IH H). destruct (eqb k x); cbn; lia.
  Qed.
End Without.

Section Live.
  Context {K V : Type} {ZK : Zero K} {ZV : Zero V}.
  Variable eqb : K -> K -> bool.
  Hypothesis EQ : eq_decides eqb.
  Variables (nilK : K -> bool) (nilV : V -> bool).
  Variable pick : live K V -> option K.
  Hypothesis LEGAL : legal pick.
  Notation get := (mget (V := V) eqb).
  Notation step := (map_live eqb nilK nilV pick).
  Notation run := (runs eqb nilK nilV pick).

  Definition inv (s : live K V) : Prop := mok (ents s) /\ forall k, In k (must s ++ may s) -> get (ents s) k <> None.
  Lemma inv_fresh m : mok m -> inv (fresh m).
  Proof. intros O. split; [exact O|]. intros k []. Qed.
  Lemma inv_set s k v : inv s -> inv (do_set eqb s k v).
  Proof.
    intros [O I]. split; cbn [ents do_set must may]; [apply mset_ok; auto|]. intros k' H. rewrite mget_set by exact EQ. destruct (eqb_spec eqb EQ k' k) as [->|N]; [discriminate|].
    apply I. apply in_app_iff in H. apply in_app_iff. destruct H as [H|H]; [left; exact H|]. right. destruct (started s && _); [|exact H]. destruct H as [->|H]; [contradiction|exact H].
  Qed.
  Lemma inv_del s k : inv s -> inv (do_del eqb s k).
  Proof.
    intros [O I]. split; cbn [ents do_del must may]; [apply mdel_ok; auto|]. intros k' H. rewrite mget_del by (try exact EQ; exact O).
    assert (H' : In k' (must s ++ may s) /\ k' <> k) by (rewrite in_app_iff in *; rewrite !(in_without eqb EQ) in H; tauto). destruct (eqb_spec eqb EQ k' k); [tauto|]. apply I. tauto.
  Qed.
  Lemma inv_begin s : inv s -> inv (begin_iter s).
  Proof.
    intros [O I]. unfold begin_iter. destruct (started s); [split; auto|]. split; cbn [ents must may]; auto. intros k H. rewrite app_nil_r in H. intros G. apply mget_none in G; auto.
  Qed.

  (** one call *)
  Lemma step_value s k v s1 : inv s -> step s = Done ((k, v), None, s1) ->
    fin s = false /\ get (ents s) k = Some v /\ In k (must (begin_iter s) ++ may (begin_iter s)) /\
    s1 = mkLive (ents s) (without eqb k (must (begin_iter s))) (without eqb k (may (begin_iter s))) true false (calls s + 1) /\ inv s1.
  Proof.
    intros I. unfold map_live. destruct (fin s); [discriminate|]. pose proof (LEGAL (begin_iter s)) as L. destruct (inv_begin s I) as [O II].
    assert (EE : ents (begin_iter s) = ents s) by (unfold begin_iter; destruct (started s); reflexivity).
    assert (EC : calls (begin_iter s) = calls s) by (unfold begin_iter; destruct (started s); reflexivity).
    destruct (pick (begin_iter s)) as [k'|]; [|discriminate]. rewrite EE in *. destruct (get (ents s) k') as [v'|] eqn:G; [|discriminate]. destruct (nilK k' || nilV v'); [discriminate|].
    intros H. injection H as -> -> <-. rewrite EC. split; auto. split; auto. split; auto. split; auto. split; cbn [ents must may]; auto.
    intros x Hx. apply II. rewrite in_app_iff in *. rewrite !(in_without eqb EQ) in Hx. tauto.
  Qed.
  Lemma step_end s kv e s1 : inv s -> step s = Done (kv, Some e, s1) -> kv = zv /\ e = EOI /\ ents s1 = ents s /\ fin s1 = true /\ inv s1 /\ (fin s = false -> must (begin_iter s) = []).
  Proof.
    intros I. unfold map_live. destruct (fin s) eqn:F; [intros H; injection H as <- <- <-; split; [reflexivity|]; split; [reflexivity|]; split; [reflexivity|]; split; [exact F|]; split; [exact I|]; intros X; congruence|].
    pose proof (LEGAL (begin_iter s)) as L. pose proof (inv_begin s I) as I2.
    assert (EE : ents (begin_iter s) = ents s) by (unfold begin_iter; destruct (started s); reflexivity).
    destruct (pick (begin_iter s)) as [k'|].
    - destruct (get (ents (begin_iter s)) k') as [v'|]; [|discriminate]. destruct (nilK k' || nilV v'); discriminate.
    - intros H. injection H as <- <- <-. cbn [ents fin must]. split; [reflexivity|]. split; [reflexivity|]. split; [exact EE|]. split; [reflexivity|]. split; [destruct I2 as [O II]; split; cbn [ents must may]; auto|]. intros _. exact L.
  Qed.
  (** a call never gets stuck, but for nil interface values *)
  Lemma step_total s : inv s -> (forall k v, get (ents s) k = Some v -> nilK k || nilV v = false) -> exists r s1, step s = Done (r, s1).
  Proof.
    intros I N. unfold map_live. destruct (fin s); [eauto|]. pose proof (LEGAL (begin_iter s)) as L. destruct (inv_begin s I) as [O II].
    assert (EE : ents (begin_iter s) = ents s) by (unfold begin_iter; destruct (started s); reflexivity). rewrite EE in *.
    destruct (pick (begin_iter s)) as [k|]; [|eauto]. destruct (get (ents s) k) as [v|] eqn:G; [|exfalso; exact (II k L G)]. rewrite (N k v G). eauto.
  Qed.
  Lemma step_inv s r s1 : inv s -> step s = Done (r, s1) -> inv s1 /\ ents s1 = ents s.
  Proof.
    intros I H. destruct r as [[k v] [e|]].
    - destruct (step_end s (k, v) e s1 I H) as (_ & _ & E & _ & I1 & _). auto.
    - destruct (step_value s k v s1 I H) as (_ & _ & _ & E & I1). subst s1. auto.
  Qed.

  Lemma run_app es1 : forall s es2 s', run s (es1 ++ es2) s' <-> exists s1, run s es1 s1 /\ run s1 es2 s'.
  Proof.
    induction es1 as [|ev es IH]; intros s es2 s'; cbn [app].
    - split; [intros H; exists s; split; [constructor|exact H]|]. intros (s1 & H1 & H2). inversion H1; subst. exact H2.
    - split.
      + intros H. inversion H; subst; match goal with X : run _ (es ++ es2) _ |- _ => apply IH in X; destruct X as (x & R1 & R2) end; exists x; split; auto; econstructor; eauto.
      + intros (x & H1 & H2). inversion H1; subst; econstructor; eauto; apply IH; eauto.
  Qed.
  Lemma run_inv : forall es s s', inv s -> run s es s' -> inv s' /\ ents s' = after eqb (ents s) es.
  Proof.
    induction es as [|ev es IH]; intros s s' I H; inversion H; subst; cbn [after]; auto.
    - apply (IH (do_set eqb s k v)); auto using inv_set.
    - apply (IH (do_del eqb s k)); auto using inv_del.
    - destruct (step_inv s r s1 I H3) as [I1 E1]. rewrite <- E1. apply IH; auto.
  Qed.

  (** what is delivered is there *)
  Theorem live_true m es1 k v es2 s' : mok m -> run (fresh m) (es1 ++ ENext ((k, v), None) :: es2) s' -> get (after eqb m es1) k = Some v.
  Proof.
    intros O H. apply run_app in H. destruct H as (s & H1 & H2). destruct (run_inv _ _ _ (inv_fresh m O) H1) as [I E]. cbn [ents fresh] in E. rewrite <- E.
    inversion H2; subst. destruct (step_value s k v _ I H4) as (_ & G & _). exact G.
  Qed.

  (** not twice, unless removed in between *)
  Lemma gone_stays k : forall es s s', inv s -> started s = true -> ~ In k (must s ++ may s) -> always_in eqb (ents s) es k -> run s es s' -> started s' = true /\ ~ In k (must s' ++ may s').
  Proof.
    induction es as [|ev es IH]; intros s s' I ST NI AI H; inversion H; subst; auto.
    - assert (AI' : always_in eqb (mset eqb (ents s) k0 v) es k) by (intros a b Eab; exact (AI (ESet k0 v :: a) b (f_equal _ Eab))).
      apply (IH (do_set eqb s k0 v)); auto using inv_set. cbn [do_set must may]. rewrite ST. cbn [andb]. intros X. apply NI. apply in_app_iff. apply in_app_iff in X. destruct X as [X|X]; [left; exact X|right].
      destruct (get (ents s) k0) eqn:G; [exact X|]. destruct X as [->|X]; [|exact X]. exfalso. exact (AI [] (ESet k v :: es) eq_refl G).
    - assert (AI' : always_in eqb (mdel eqb (ents s) k0) es k) by (intros a b Eab; exact (AI (EDel k0 :: a) b (f_equal _ Eab))).
      apply (IH (do_del eqb s k0)); auto using inv_del. cbn [do_del must may]. intros X. apply NI. rewrite in_app_iff in *. rewrite !(in_without eqb EQ) in X. tauto.
    - assert (AI' : always_in eqb (ents s1) es k).
      { destruct (step_inv s r s1 I H3) as [_ ->]. intros a b Eab. exact (AI (ENext r :: a) b (f_equal _ Eab)). }
      destruct (step_inv s r s1 I H3) as [I1 _]. assert (BG : begin_iter s = s) by (unfold begin_iter; rewrite ST; reflexivity).
      destruct r as [[k' v'] [e|]].
      + revert H3. unfold map_live. rewrite BG. destruct (fin s); [intros X; injection X as _ _ _ Es; rewrite <- Es in H5, AI'; apply (IH s); auto|].
        destruct (pick s) as [x|]; [destruct (get (ents s) x) as [y|]; [|discriminate]; destruct (nilK x || nilV y); discriminate|]. intros X. injection X as _ _ _ Es. rewrite <- Es in AI', H5, I1. eapply IH with (5 := H5); auto.
      + destruct (step_value s k' v' s1 I H3) as (_ & _ & _ & E & _). rewrite BG in E. apply (IH s1); auto; subst s1; auto. cbn [must may]. intros X. apply NI. rewrite in_app_iff in *. rewrite !(in_without eqb EQ) in X. tauto.
  Qed.
  Theorem live_once m es1 k v es2 v' es3 s' : mok m -> run (fresh m) (es1 ++ ENext ((k, v), None) :: es2 ++ ENext ((k, v'), None) :: es3) s' ->
    ~ always_in eqb (after eqb m es1) es2 k.
  Proof.
    intros O H AI. apply run_app in H. destruct H as (s & H1 & H2). destruct (run_inv _ _ _ (inv_fresh m O) H1) as [I E]. cbn [ents fresh] in E.
    inversion H2; subst. match goal with X : step s = _ |- _ => destruct (step_value s k v _ I X) as (_ & _ & _ & E1 & I1) end. subst s1.
    match goal with X : run _ (es2 ++ _) _ |- _ => apply run_app in X; destruct X as (s2 & R2 & R3) end. rewrite <- E in AI.
    destruct (gone_stays k es2 _ s2 I1 eq_refl) with (2 := AI) (3 := R2) as [ST NI]. { cbn [must may]. rewrite in_app_iff, !(in_without eqb EQ). tauto. }
    inversion R3; subst. destruct (run_inv _ _ _ I1 R2) as [I2 _]. match goal with X : step s2 = _ |- _ => destruct (step_value s2 k v' _ I2 X) as (_ & _ & IN & _) end.
    assert (BG : begin_iter s2 = s2) by (unfold begin_iter; rewrite ST; reflexivity). rewrite BG in IN. contradiction.
  Qed.

  (** nothing that is there all the time is left out *)
  Lemma due_stays k : forall es s s', inv s -> started s = true -> fin s = false -> In k (must s) -> always_in eqb (ents s) es k -> (forall v, ~ In (k, v) (delivered es)) -> run s es s' ->
    started s' = true /\ fin s' = false /\ In k (must s') .
  Proof.
    induction es as [|ev es IH]; intros s s' I ST NF IN AI ND H; inversion H; subst; auto.
    - assert (AI' : always_in eqb (mset eqb (ents s) k0 v) es k) by (intros a b Eab; exact (AI (ESet k0 v :: a) b (f_equal _ Eab))).
      apply (IH (do_set eqb s k0 v)); auto using inv_set.
    - assert (AI' : always_in eqb (mdel eqb (ents s) k0) es k) by (intros a b Eab; exact (AI (EDel k0 :: a) b (f_equal _ Eab))).
      apply (IH (do_del eqb s k0)); auto using inv_del. cbn [do_del must]. apply (in_without eqb EQ). split; auto. intros ->. pose proof (AI' [] es eq_refl) as X. apply X. cbn [after]. destruct I as [O _]. rewrite mget_del, (eqb_refl eqb EQ) by (try exact EQ; exact O). reflexivity.
    - assert (AI' : always_in eqb (ents s1) es k).
      { destruct (step_inv s r s1 I H3) as [_ ->]. intros a b Eab. exact (AI (ENext r :: a) b (f_equal _ Eab)). }
      destruct (step_inv s r s1 I H3) as [I1 _]. assert (BG : begin_iter s = s) by (unfold begin_iter; rewrite ST; reflexivity).
      destruct r as [[k' v'] [e|]].
      + destruct (step_end s (k', v') e s1 I H3) as (_ & _ & _ & _ & _ & X). specialize (X NF). rewrite BG in X. rewrite X in IN. contradiction.
      + destruct (step_value s k' v' s1 I H3) as (_ & _ & _ & E & _). rewrite BG in E. cbn [delivered] in ND. apply (IH s1); auto; subst s1; auto.
        * cbn [must]. apply (in_without eqb EQ). split; auto. intros ->. apply (ND v'). left. reflexivity.
        * intros v X. apply (ND v). right. exact X.
  Qed.
  Theorem live_complete m es0 es1 kv e es2 s' k : mok m -> quiet es0 -> run (fresh m) (es0 ++ es1 ++ ENext (kv, Some e) :: es2) s' ->
    (match es1 with [] | ENext _ :: _ => True | _ => False end) -> always_in eqb (after eqb m es0) es1 k -> exists v, In (k, v) (delivered es1).
  Proof.
    intros O Q H FC AI. apply run_app in H. destruct H as (s & H0 & H). destruct (run_inv _ _ _ (inv_fresh m O) H0) as [I E]. cbn [ents fresh] in E.
    assert (Q0 : started s = false /\ fin s = false).
    { clear -Q H0. assert (G : started (fresh m) = false /\ fin (fresh (K := K) (V := V) m) = false) by (cbn; auto). revert H0 G. generalize (fresh m). revert Q. induction es0 as [|ev es IH]; intros Q a H G; inversion H; subst; auto.
      - match goal with R : runs _ _ _ _ _ es _ |- _ => apply (IH (fun r X => Q r (or_intror X)) _ R) end. exact G.
      - match goal with R : runs _ _ _ _ _ es _ |- _ => apply (IH (fun r X => Q r (or_intror X)) _ R) end. exact G.
      - exfalso. exact (Q r (or_introl eq_refl)). }
    destruct Q0 as [NS NF].
    assert (KM : In k (must (begin_iter s))).
    { unfold begin_iter. rewrite NS. cbn [must]. pose proof (AI [] es1 eq_refl) as X. cbn [after] in X. rewrite <- E in X. destruct (in_dec (fun a b => match Bool.bool_dec (eqb a b) true with left e => left (proj1 (EQ a b) e) | right e => right (fun h => e (proj2 (EQ a b) h)) end) k (map fst (ents s))); auto. exfalso. apply X. apply mget_none; auto. }
    assert (DEC : (exists v, In (k, v) (delivered es1)) \/ forall v, ~ In (k, v) (delivered es1)).
    { generalize (delivered es1). induction l as [|[a b] l IH]; [right; cbn; tauto|]. destruct (eqb_spec eqb EQ a k) as [->|N]; [left; exists b; left; reflexivity|].
      destruct IH as [[v X]|X]; [left; exists v; right; exact X|right]. intros v [Y|Y]; [congruence|exact (X v Y)]. }
    destruct DEC as [D|ND]; [exact D|exfalso].
    apply run_app in H. destruct H as (s2 & H1 & H2). inversion H2; subst. match goal with X : step s2 = _ |- _ => rename X into SE end.
    destruct es1 as [|ev es1].
    - inversion H1; subst. destruct (step_end s2 kv e _ I SE) as (_ & _ & _ & _ & _ & X). rewrite (X NF) in KM. contradiction.
    - destruct ev as [k0 v0|k0|r]; try contradiction. inversion H1; subst. match goal with X : step s = _ |- _ => rename X into SF end. match goal with X : run _ es1 s2 |- _ => rename X into R1 end. destruct (step_inv s r _ I SF) as [I1 E1].
      assert (AI' : always_in eqb (ents s3) es1 k). { rewrite E1, E. intros a b Eab. exact (AI (ENext r :: a) b (f_equal _ Eab)). }
      destruct r as [[k' v'] [e'|]].
      + destruct (step_end s _ _ _ I SF) as (_ & _ & _ & _ & _ & X). rewrite (X NF) in KM. contradiction.
      + destruct (step_value s k' v' _ I SF) as (_ & _ & _ & E3 & _). cbn [delivered] in ND.
        destruct (due_stays k es1 s3 s2 I1) with (5 := fun v X => ND v (or_intror X)) (6 := R1) as (ST2 & NF2 & IN2); auto.
        * subst s3. reflexivity.
        * subst s3. reflexivity.
        * subst s3. cbn [must]. apply (in_without eqb EQ). split; auto. intros ->. apply (ND v'). left. reflexivity.
        * destruct (run_inv _ _ _ I1 R1) as [I2 _]. destruct (step_end s2 kv e _ I2 SE) as (_ & _ & _ & _ & _ & X). specialize (X NF2). unfold begin_iter in X. rewrite ST2 in X. rewrite X in IN2. contradiction.
  Qed.

  (** the end is final *)
  Lemma live_over : forall es s s', fin s = true -> run s es s' -> delivered es = [] /\ forall r, In (ENext r) es -> r = (zv, Some EOI).
  Proof.
    induction es as [|ev es IH]; intros s s' F H; [split; [reflexivity|intros r []]|]. inversion H; subst; match goal with X : run _ es _ |- _ => rename X into R end; cbn [delivered].
    - destruct (IH (do_set eqb s k v) s' F R) as [D A]. split; auto. intros r [X|X]; [discriminate|auto].
    - destruct (IH (do_del eqb s k) s' F R) as [D A]. split; auto. intros r [X|X]; [discriminate|auto].
    - match goal with X : step s = _ |- _ => rename X into SF end. unfold map_live in SF. rewrite F in SF. injection SF as Er Es. rewrite <- Es in R. destruct (IH s s' F R) as [D A]. subst r. split; auto. intros r [X|X]; [congruence|auto].
  Qed.
  Theorem live_final m es1 kv e es2 s' : mok m -> run (fresh m) (es1 ++ ENext (kv, Some e) :: es2) s' -> kv = zv /\ e = EOI /\ forall r, In (ENext r) es2 -> r = (zv, Some EOI).
  Proof.
    intros O H. apply run_app in H. destruct H as (s & H1 & H2). destruct (run_inv _ _ _ (inv_fresh m O) H1) as [I E]. inversion H2; subst.
    match goal with X : step s = _ |- _ => destruct (step_end s kv e _ I X) as (A & B & _ & F & _) end. split; auto. split; auto. eapply live_over; eauto.
  Qed.

  (** how many *)
  Lemma live_bound : forall es s s', inv s -> started s = true -> run s es s' -> length (delivered es) <= length (must s) + length (may s) + creations eqb (ents s) es.
  Proof.
    induction es as [|ev es IH]; intros s s' I ST H; inversion H; subst; try match goal with X : run _ es _ |- _ => rename X into R end; try match goal with X : step s = _ |- _ => rename X into SF end; cbn [delivered creations length]; [lia| | |].
    - specialize (IH _ _ (inv_set s k v I) ST R). cbn [do_set must may ents] in IH. rewrite ST in IH. cbn [andb] in IH. destruct (get (ents s) k); cbn [length] in IH; lia.
    - specialize (IH _ _ (inv_del s k I) ST R). cbn [do_del must may ents] in IH. pose proof (without_length eqb k (must s)). pose proof (without_length eqb k (may s)). lia.
    - destruct (step_inv s r _ I SF) as [I1 E1]. assert (BG : begin_iter s = s) by (unfold begin_iter; rewrite ST; reflexivity). destruct r as [[k' v'] [e|]].
      + cbn [delivered]. destruct (step_end s _ _ _ I SF) as (_ & _ & _ & F & _). destruct (live_over es s1 s' F R) as [-> _]. cbn. lia.
      + destruct (step_value s k' v' _ I SF) as (_ & _ & IN & E & _). rewrite BG in *. assert (ST1 : started s1 = true) by (subst s1; reflexivity). specialize (IH _ _ I1 ST1 R). rewrite E1 in IH. subst s1. cbn [must may length] in *.
        pose proof (without_length eqb k' (must s)). pose proof (without_length eqb k' (may s)). apply in_app_iff in IN. destruct IN as [IN|IN]; apply (without_shorter eqb EQ) in IN; lia.
  Qed.
  Theorem live_count m es0 es1 s' : mok m -> quiet es0 -> run (fresh m) (es0 ++ es1) s' -> (match es1 with [] | ENext _ :: _ => True | _ => False end) ->
    length (delivered es1) <= length (after eqb m es0) + creations eqb (after eqb m es0) es1.
  Proof.
    intros O Q H FC. apply run_app in H. destruct H as (s & H0 & H). destruct (run_inv _ _ _ (inv_fresh m O) H0) as [I E]. cbn [ents fresh] in E. rewrite <- E.
    destruct es1 as [|[| |r] es1]; try contradiction; [cbn; lia|]. inversion H; subst. match goal with X : step s = _ |- _ => rename X into SF end. destruct (step_inv s r _ I SF) as [I1 E1].
    assert (BM : length (must (begin_iter s)) + length (may (begin_iter s)) <= length (ents s) \/ started s = true).
    { unfold begin_iter. destruct (started s); [auto|]. left. cbn [must may]. rewrite map_length. cbn. lia. }
    assert (NS : started s = false).
    { clear -Q H0. assert (G : started (fresh (K := K) (V := V) m) = false) by reflexivity. revert H0 G. generalize (fresh m). revert Q. induction es0 as [|ev es IH]; intros Q a H G; inversion H; subst; auto.
      - match goal with R : runs _ _ _ _ _ es _ |- _ => apply (IH (fun r X => Q r (or_intror X)) _ R) end. exact G.
      - match goal with R : runs _ _ _ _ _ es _ |- _ => apply (IH (fun r X => Q r (or_intror X)) _ R) end. exact G.
      - exfalso. exact (Q r (or_introl eq_refl)). }
    destruct BM as [BM|BM]; [|congruence]. cbn [creations]. destruct r as [[k' v'] [e|]]; cbn [delivered length].
    - destruct (step_end s _ _ _ I SF) as (_ & _ & _ & F & _). match goal with X : run _ es1 _ |- _ => destruct (live_over es1 _ _ F X) as [-> _] end. cbn. lia.
    - destruct (step_value s k' v' _ I SF) as (_ & _ & IN & E2 & _). match goal with X : run s1 es1 _ |- _ => rename X into R1 end. assert (ST1 : started s1 = true) by (subst s1; reflexivity). pose proof (live_bound es1 s1 s' I1 ST1 R1) as B. rewrite E1 in B. subst s1. cbn [must may] in B.
      pose proof (without_length eqb k' (must (begin_iter s))). pose proof (without_length eqb k' (may (begin_iter s))). apply in_app_iff in IN. destruct IN as [IN|IN]; apply (without_shorter eqb EQ) in IN; lia.
  Qed.
End Live.
