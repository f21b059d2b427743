(** Proofs about iterators. *)
From Verif Require Import Base IterSpec Iter.
Open Scope go_scope.

Section Returns.
  Context {S T : Type} `{Zero T}.
  Implicit Types (f : stepfn S T) (s : S).

  Lemma returns_det f s r1 s1 r2 s2 :
    returns f s r1 s1 -> returns f s r2 s2 -> r1 = r2 /\ s1 = s2.
  Proof.
    intros [n1 H1] [n2 H2].
    specialize (H1 (Nat.max n1 n2) (Nat.le_max_l _ _)).
    specialize (H2 (Nat.max n1 n2) (Nat.le_max_r _ _)).
    rewrite H1 in H2. inversion H2; auto.
  Qed.

  Lemma emits_app f s l1 s1 l2 s2 : emits f s l1 s1 -> emits f s1 l2 s2 -> emits f s (l1 ++ l2) s2.
  Proof. induction 1; simpl; auto. intros. econstructor; eauto. Qed.

  Lemma emits_app_inv f s l1 l2 s2 :
    emits f s (l1 ++ l2) s2 -> exists s1, emits f s l1 s1 /\ emits f s1 l2 s2.
  Proof.
    revert s. induction l1 as [|v l1 IH]; simpl; intros s E.
    - exists s. split; auto. constructor.
    - inversion E as [|? ? s0 ? ? R0 E0]; subst. destruct (IH _ E0) as (s3 & E1 & E2).
      exists s3. split; auto. econstructor; eauto.
  Qed.

  Lemma emits_one f s v s' : returns f s (v, None) s' -> emits f s [v] s'.
  Proof. intros. econstructor; eauto. constructor. Qed.

  Lemma stuck_inv f s e : stuck f s e -> exists s', returns f s (zv, Some e) s' /\ stuck f s' e.
  Proof. intros E; inversion E; subst; eauto. Qed.

  Lemma stuck_fails f s e : stuck f s e -> exists s', fails f s e s' /\ stuck f s' e.
  Proof. intros E; inversion E; subst. exists s'. split; auto. exists zv; auto. Qed.

  Lemma stuck_fixed f s e : returns f s (zv, Some e) s -> stuck f s e.
  Proof. intros R. cofix CH. econstructor; [exact R|exact CH]. Qed.

  Lemma yields_nil_inv f s e : yields f s [] e -> stuck f s e.
  Proof. intros (s' & E & K). inversion E; subst; auto. Qed.

  Lemma yields_cons_inv f s v l e :
    yields f s (v :: l) e -> exists s', returns f s (v, None) s' /\ yields f s' l e.
  Proof. intros (s' & E & K). inversion E; subst. exists s1. split; auto. exists s'; auto. Qed.

  Lemma yields_cons f s v s' l e :
    returns f s (v, None) s' -> yields f s' l e -> yields f s (v :: l) e.
  Proof. intros R (s2 & E & K). exists s2; split; auto. econstructor; eauto. Qed.

  (** A behaviour is unique. *)
  Lemma yields_det f s l1 e1 l2 e2 : yields f s l1 e1 -> yields f s l2 e2 -> l1 = l2 /\ e1 = e2.
  Proof.
    revert s l2. induction l1 as [|v1 l1 IH]; intros s l2 Y1 Y2; destruct l2 as [|v2 l2].
    - apply yields_nil_inv in Y1. apply yields_nil_inv in Y2.
      apply stuck_inv in Y1 as (? & R1 & _). apply stuck_inv in Y2 as (? & R2 & _).
      destruct (returns_det _ _ _ _ _ _ R1 R2) as [E _]. inversion E; auto.
    - apply yields_nil_inv in Y1. apply stuck_inv in Y1 as (? & R1 & _).
      apply yields_cons_inv in Y2 as (? & R2 & _).
      destruct (returns_det _ _ _ _ _ _ R1 R2) as [E _]. inversion E.
    - apply yields_nil_inv in Y2. apply stuck_inv in Y2 as (? & R1 & _).
      apply yields_cons_inv in Y1 as (? & R2 & _).
      destruct (returns_det _ _ _ _ _ _ R1 R2) as [E _]. inversion E.
    - apply yields_cons_inv in Y1 as (? & R1 & Y1).
      apply yields_cons_inv in Y2 as (? & R2 & Y2).
      destruct (returns_det _ _ _ _ _ _ R1 R2) as [E E']. inversion E; subst.
      destruct (IH _ _ Y1 Y2); subst; auto.
  Qed.

  Lemma yields_app f s l1 s1 l2 e : emits f s l1 s1 -> yields f s1 l2 e -> yields f s (l1 ++ l2) e.
  Proof. intros E (s2 & E2 & K). exists s2. split; auto. eapply emits_app; eauto. Qed.
End Returns.

(** ** IterImpl over a generating function *)
Section Impl.
  Context {S T : Type} `{Zero T}.
  Variable fn : stepfn S T.
  Implicit Types (s : S).

  Lemma next_value s v s' : returns fn s (v, None) s' -> returns (next fn) (ofIter s) (v, None) (ofIter s').
  Proof. intros [n Hn]. exists n. intros m Hm. unfold next, ofIter. simpl. rewrite Hn by auto. reflexivity. Qed.

  Lemma next_error s e s' : fails fn s e s' -> returns (next fn) (ofIter s) (zv, Some e) (dead s' e).
  Proof. intros [v [n Hn]]. exists n. intros m Hm. unfold next, ofIter. simpl. rewrite Hn by auto. reflexivity. Qed.

  Lemma next_dead s e : returns (next fn) (dead s e) (zv, Some e) (dead s e).
  Proof. exists 0. intros; reflexivity. Qed.

  Lemma dead_stuck s e : stuck (next fn) (dead s e) e.
  Proof. apply stuck_fixed, next_dead. Qed.

  Lemma ofIter_stuck s e s' : fails fn s e s' -> stuck (next fn) (ofIter s) e.
  Proof. intros F. econstructor. apply next_error; eauto. apply dead_stuck. Qed.

  Lemma ofIter_emits s l s' : emits fn s l s' -> emits (next fn) (ofIter s) l (ofIter s').
  Proof. induction 1. constructor. econstructor; eauto. apply next_value; auto. Qed.

  Lemma ofIter_yields s l s' e s'' :
    emits fn s l s' -> fails fn s' e s'' -> yields (next fn) (ofIter s) l e.
  Proof.
    intros E F. exists (ofIter s'). split. apply ofIter_emits; auto. eapply ofIter_stuck; eauto.
  Qed.
End Impl.

(** ** Histories of Next and Unread *)
Section History.
  Context {S T : Type} `{Zero T}.
  Variable fn : stepfn S T.

  Lemma nth_error_snoc {A} (l : list A) v : nth_error (l ++ [v]) (length (l ++ [v]) - 1) = Some v.
  Proof.
    rewrite app_length. simpl. replace (length l + 1 - 1) with (length l) by lia.
    rewrite nth_error_app2 by lia. rewrite Nat.sub_diag. reflexivity.
  Qed.

  Lemma firstn_snoc {A} (l : list A) v : firstn (length (l ++ [v]) - 1) (l ++ [v]) = l.
  Proof.
    rewrite app_length. simpl. replace (length l + 1 - 1) with (length l) by lia.
    rewrite firstn_app, Nat.sub_diag, firstn_all. simpl. apply app_nil_r.
  Qed.

  (** What is still to come from an iterator state; [oe = None] if only a prefix is known. *)
  Inductive pending : impl S T -> list T -> option err -> Prop :=
  | pending_live s b le l e s' s'' p :
      emits fn s l s' -> fails fn s' e s'' -> p = rev b ++ l -> pending (mkImpl true s b le) p (Some e)
  | pending_pre s b le l s' p :
      emits fn s l s' -> p = rev b ++ l -> pending (mkImpl true s b le) p None
  | pending_dead s b e p : p = rev b -> pending (mkImpl false s b (Some e)) p (Some e).

  Lemma pending_unread it l e v : pending it l e -> pending (unread it v) (v :: l) e.
  Proof.
    intros P; inversion P; subst; unfold unread; simpl.
    - eapply pending_live; eauto. rewrite rev_app_distr; reflexivity.
    - eapply pending_pre; eauto. rewrite rev_app_distr; reflexivity.
    - constructor. rewrite rev_app_distr; reflexivity.
  Qed.

  Lemma next_buffered fl s b v le :
    returns (next fn) (mkImpl fl s (b ++ [v]) le) (v, None) (mkImpl fl s b le).
  Proof. exists 0. intros m _. unfold next. simpl buffer. rewrite nth_error_snoc, firstn_snoc. reflexivity. Qed.

  Lemma next_live s v s' le :
    returns fn s (v, None) s' -> returns (next fn) (mkImpl true s [] le) (v, None) (mkImpl true s' [] le).
  Proof. intros [n Hn]. exists n. intros m Hm. unfold next; simpl. rewrite Hn by auto. reflexivity. Qed.

  Lemma next_live_err s e s' le :
    fails fn s e s' -> returns (next fn) (mkImpl true s [] le) (zv, Some e) (mkImpl false s' [] (Some e)).
  Proof. intros [v [n Hn]]. exists n. intros m Hm. unfold next; simpl. rewrite Hn by auto. reflexivity. Qed.

  Lemma pending_next_value it v l e :
    pending it (v :: l) e -> exists it', returns (next fn) it (v, None) it' /\ pending it' l e.
  Proof.
    intros P; inversion P as [s b le l0 e0 s' s'' p E F Hp|s b le l0 s' p E Hp|s b e0 p Hp]; subst.
    - destruct b as [|b0 b _] using rev_ind.
      + simpl in Hp. subst l0. inversion E as [|? ? s1 ? ? R E1]; subst.
        eexists. split. { apply next_live; eauto. } eapply pending_live; eauto.
      + rewrite rev_app_distr in Hp. simpl in Hp. inversion Hp; subst. eexists.
        split. { apply next_buffered. } eapply pending_live; eauto.
    - destruct b as [|b0 b _] using rev_ind.
      + simpl in Hp. subst l0. inversion E as [|? ? s1 ? ? R E1]; subst.
        eexists. split. { apply next_live; eauto. } eapply pending_pre; eauto.
      + rewrite rev_app_distr in Hp. simpl in Hp. inversion Hp; subst. eexists.
        split. { apply next_buffered. } eapply pending_pre; eauto.
    - destruct b as [|b0 b _] using rev_ind; [discriminate|].
      rewrite rev_app_distr in Hp. simpl in Hp. inversion Hp; subst. eexists.
      split. { apply next_buffered. } constructor; auto.
  Qed.

  Lemma pending_next_end it e :
    pending it [] (Some e) -> exists it', returns (next fn) it (zv, Some e) it' /\ pending it' [] (Some e).
  Proof.
    intros P; inversion P as [s b le l0 e0 s' s'' p E F Hp|s b le l0 s' p E Hp|s b e0 p Hp]; subst.
    - symmetry in Hp. apply app_eq_nil in Hp as [Hb Hl]. subst l0.
      destruct b as [|b0 b _] using rev_ind; [|rewrite rev_app_distr in Hb; discriminate].
      inversion E; subst. eexists. split. { apply next_live_err; eauto. } constructor; auto.
    - destruct b as [|b0 b _] using rev_ind; [|rewrite rev_app_distr in Hp; discriminate].
      eexists. split. { exists 0. intros; reflexivity. } constructor; auto.
  Qed.

  Lemma run_ops_pending ops it l oe e :
    pending it l oe -> (oe = Some e \/ enough ops (length l) = true) ->
    exists n, forall m, n <= m -> exists it', run_ops fn m ops it = Done (spec_ops ops l e, it').
  Proof.
    revert it l. induction ops as [|[|v] ops IH]; intros it l P HE.
    - exists 0. intros; eexists; reflexivity.
    - destruct l as [|v l].
      + destruct HE as [HE|HE]; [|discriminate]. subst oe.
        destruct (pending_next_end _ _ P) as (it' & [n1 Hn1] & P').
        destruct (IH _ _ P' (or_introl eq_refl)) as [n2 Hn2].
        exists (Nat.max n1 n2). intros m Hm. simpl. rewrite Hn1 by lia. simpl.
        destruct (Hn2 m) as [it2 E]; [lia|]. rewrite E. simpl. eauto.
      + destruct (pending_next_value _ _ _ _ P) as (it' & [n1 Hn1] & P').
        destruct (IH _ _ P' HE) as [n2 Hn2].
        exists (Nat.max n1 n2). intros m Hm. simpl. rewrite Hn1 by lia. simpl.
        destruct (Hn2 m) as [it2 E]; [lia|]. rewrite E. simpl. eauto.
    - simpl. apply IH. { apply pending_unread; auto. } exact HE.
  Qed.

  Lemma run_ops_finite ops s l s' e s'' :
    emits fn s l s' -> fails fn s' e s'' ->
    exists n, forall m, n <= m -> exists it', run_ops fn m ops (ofIter s) = Done (spec_ops ops l e, it').
  Proof.
    intros E F. eapply run_ops_pending with (oe := Some e); [|left; reflexivity].
    eapply pending_live; eauto.
  Qed.

  Lemma run_ops_prefix ops s l s' e :
    emits fn s l s' -> enough ops (length l) = true ->
    exists n, forall m, n <= m -> exists it', run_ops fn m ops (ofIter s) = Done (spec_ops ops l e, it').
  Proof.
    intros E F. eapply run_ops_pending with (oe := None); [|right; assumption].
    eapply pending_pre; eauto.
  Qed.

  (** After an error: for every later history, the source state is never touched again, and the outputs are
      those of a bare stack over (zero, e). *)
  Lemma run_ops_dead fuel ops s b e :
    exists it', run_ops fn fuel ops (mkImpl false s b (Some e)) = Done (spec_ops ops (rev b) e, it')
                /\ src it' = s /\ fn_live it' = false /\ last_err it' = Some e.
  Proof.
    revert b. induction ops as [|[|v] ops IH]; intros b.
    - eexists. split; [reflexivity|auto].
    - destruct b as [|b0 b _] using rev_ind.
      + simpl. destruct (IH []) as (it' & E & K). simpl in E. unfold next; simpl. rewrite E. simpl. eauto.
      + destruct (IH b) as (it' & E & K). simpl run_ops. unfold next. simpl buffer.
        rewrite nth_error_snoc, firstn_snoc. simpl. rewrite E. simpl. rewrite rev_app_distr. simpl. eauto.
    - simpl. destruct (IH (b ++ [v])) as (it' & E & K). unfold unread; simpl. rewrite E.
      rewrite rev_app_distr. simpl. eauto.
  Qed.

  (** As long as there are unread values, the underlying function is not called. *)
  Lemma run_ops_buffered fuel ops e : forall live s b le, enough ops (length b) = true ->
    exists b', run_ops fn fuel ops (mkImpl live s b le) = Done (spec_ops ops (rev b) e, mkImpl live s b' le).
  Proof.
    induction ops as [|[|v] ops IH]; intros live s b le En.
    - eexists. reflexivity.
    - destruct b as [|b0 b _] using rev_ind; [discriminate|]. rewrite app_length, Nat.add_comm in En. simpl in En.
      destruct (IH live s b le En) as (b' & E). exists b'. simpl run_ops. unfold next. simpl buffer.
      rewrite nth_error_snoc, firstn_snoc. simpl. rewrite E. simpl. rewrite rev_app_distr. reflexivity.
    - simpl in En. destruct (IH live s (b ++ [v]) le) as (b' & E); [rewrite app_length, Nat.add_comm; exact En|].
      exists b'. simpl. unfold unread; simpl. rewrite E, rev_app_distr. reflexivity.
  Qed.

  (** Whatever the underlying function does, a Next that returns an error returns the zero value with it and
      leaves the iterator dead; and an iterator built by OfIter never has a dead function without an error. *)
  Lemma next_error_dead fuel it v e it' :
    (fn_live it = false -> last_err it <> None) ->
    next fn fuel it = Done ((v, Some e), it') ->
    v = zv /\ fn_live it' = false /\ last_err it' = Some e /\ buffer it' = [].
  Proof.
    intros I. unfold next.
    destruct (nth_error (buffer it) (length (buffer it) - 1)) eqn:B; [intros X; inversion X|].
    assert (Hb : buffer it = []).
    { destruct (buffer it) as [|x b] eqn:Eb; auto. apply nth_error_None in B. simpl in B. lia. }
    destruct (fn_live it) eqn:L.
    - destruct (fn fuel (src it)) as [[[w [e0|]] s']| |]; simpl; intros X; inversion X; subst; simpl; auto.
    - intros X; inversion X; subst. auto.
  Qed.

  Definition wf (it : impl S T) : Prop := fn_live it = false -> last_err it <> None.

  Lemma wf_ofIter s : wf (ofIter s).
  Proof. unfold wf; simpl; discriminate. Qed.

  Lemma wf_next fuel it r it' : wf it -> next fn fuel it = Done (r, it') -> wf it'.
  Proof.
    unfold wf, next. intros W.
    destruct (nth_error (buffer it) (length (buffer it) - 1)); [intros X; inversion X; subst; simpl; auto|].
    destruct (fn_live it) eqn:L.
    - destruct (fn fuel (src it)) as [[[w [e0|]] s']| |]; simpl; intros X; inversion X; subst; simpl; discriminate.
    - intros X; inversion X; subst. auto.
  Qed.

  Lemma wf_unread it v : wf it -> wf (unread it v).
  Proof. unfold wf, unread; simpl; auto. Qed.

  Lemma wf_run fuel ops it rs it' : wf it -> run_ops fn fuel ops it = Done (rs, it') -> wf it'.
  Proof.
    revert it rs. induction ops as [|[|v] ops IH]; intros it rs W; simpl.
    - intros X; inversion X; subst; auto.
    - destruct (next fn fuel it) as [[r it1]| |] eqn:N; simpl; try discriminate.
      destruct (run_ops fn fuel ops it1) as [[rs1 it2]| |] eqn:R; simpl; try discriminate.
      intros X; inversion X; subst. eapply IH; [|eassumption]. eapply wf_next; eauto.
    - intros X. eapply IH; [|eassumption]. apply wf_unread; auto.
  Qed.

  (** After any history, if Next returns an error then every later history behaves as a stack over
      (zero, that error), and the underlying function's state never changes again (it is never called). *)
  Lemma error_final fuel ops s rs it fuel1 v e it1 :
    run_ops fn fuel ops (ofIter s) = Done (rs, it) ->
    next fn fuel1 it = Done ((v, Some e), it1) ->
    v = zv /\
    forall fuel' ops',
      exists it', run_ops fn fuel' ops' it1 = Done (spec_ops ops' [] e, it') /\ src it' = src it1.
  Proof.
    intros R N. assert (W : wf it) by (eapply wf_run; [apply wf_ofIter|exact R]).
    destruct (next_error_dead _ _ _ _ _ W N) as (Hv & L & E & B). split; [exact Hv|].
    intros fuel' ops'. destruct it1 as [fl sr bu le]. simpl in *. subst.
    destruct (run_ops_dead fuel' ops' sr [] e) as (it' & R' & Hs & _). exists it'. split; auto.
  Qed.
End History.

(** ** SetError *)
Section SetErr.
  Context {S T : Type} `{Zero T}.
  Variables (nx : stepfn S T) (e : err).

  Lemma set_error_value s v s' : returns nx s (v, None) s' -> returns (set_error_gen nx e) s (v, None) s'.
  Proof. intros [n Hn]. exists n. intros m Hm. unfold set_error_gen. rewrite Hn by auto. reflexivity. Qed.

  Lemma set_error_emits s l s' : emits nx s l s' -> emits (set_error_gen nx e) s l s'.
  Proof. induction 1; econstructor; eauto. apply set_error_value; auto. Qed.

  Lemma set_error_fails s e0 s' : fails nx s e0 s' -> fails (set_error_gen nx e) s e s'.
  Proof. intros [v [n Hn]]. exists zv, n. intros m Hm. unfold set_error_gen. rewrite Hn by auto. reflexivity. Qed.

  Lemma set_error_yields s l e0 :
    yields nx s l e0 -> yields (next (set_error_gen nx e)) (ofIter s) l e.
  Proof.
    intros (s' & E & K). apply stuck_fails in K as (s'' & F & _).
    eapply ofIter_yields. { apply set_error_emits; eauto. } eapply set_error_fails; eauto.
  Qed.

  Lemma set_error_prefix s l s' :
    emits nx s l s' -> emits (next (set_error_gen nx e)) (ofIter s) l (ofIter s').
  Proof. intros. apply ofIter_emits, set_error_emits; auto. Qed.
End SetErr.
