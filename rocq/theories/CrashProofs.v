From Verif Require Import Base Iter Slice Crash CrashSpec.
Open Scope nat_scope.

Section P.
  Context {S T : Type} `{ZT : Zero T}.
  Lemma ends_next_value (fn : pstep S T) s v s1 : ends fn s (Ret (v, None)) s1 -> ends (pnext fn) (ofIter s) (Ret (v, None)) (ofIter s1).
  Proof. intros (n & E). exists n. intros m M. unfold pnext, ofIter. cbn. rewrite E by auto. reflexivity. Qed.
  Lemma ends_next_panic (fn : pstep S T) s s1 : ends fn s Pan s1 -> ends (pnext fn) (ofIter s) Pan (ofIter s1).
  Proof. intros (n & E). exists n. intros m M. unfold pnext, ofIter. cbn. rewrite E by auto. reflexivity. Qed.
  Lemma over_dead (fn : pstep S T) s e : over (pnext fn) (mkImpl false s [] (Some e)) e.
  Proof. cofix C. econstructor; [|exact C]. exists 0. intros. reflexivity. Qed.
  Lemma ends_next_error (fn : pstep S T) s v e s1 : ends fn s (Ret (v, Some e)) s1 -> ends (pnext fn) (ofIter s) (Ret (zv, Some e)) (mkImpl false s1 [] (Some e)).
  Proof. intros (n & E). exists n. intros m M. unfold pnext, ofIter. cbn. rewrite E by auto. reflexivity. Qed.
  Lemma runs_error (fn : pstep S T) s v e s1 : ends fn s (Ret (v, Some e)) s1 -> runs (pnext fn) (ofIter s) [] e.
  Proof.
    intros E. exists (ofIter s). split; [constructor|]. econstructor; [|apply over_dead]. eapply ends_next_error; eauto.
  Qed.
  Lemma runs_value (fn : pstep S T) s v s1 l e : ends fn s (Ret (v, None)) s1 -> runs (pnext fn) (ofIter s1) l e -> runs (pnext fn) (ofIter s) (Some v :: l) e.
  Proof. intros E (s' & A & B). exists s'. split; auto. econstructor; eauto. apply ends_next_value; auto. Qed.
  Lemma runs_panic (fn : pstep S T) s s1 l e : ends fn s Pan s1 -> runs (pnext fn) (ofIter s1) l e -> runs (pnext fn) (ofIter s) (None :: l) e.
  Proof. intros E (s' & A & B). exists s'. split; auto. econstructor; eauto. apply ends_next_panic; auto. Qed.

  Lemma runs_cons (f : pstep S T) s x l e : runs f s (x :: l) e ->
    exists s1, ends f s (match x with Some v => Ret (v, None) | None => Pan end) s1 /\ runs f s1 l e.
  Proof. intros (s' & A & B). inversion A; subst; exists s1; (split; [assumption|]); exists s'; auto. Qed.
  Lemma runs_nil (f : pstep S T) s e : runs f s [] e -> exists s1, ends f s (Ret (zv, Some e)) s1 /\ runs f s1 [] e.
  Proof. intros (s' & A & B). inversion A; subst. inversion B; subst. exists s'0. split; auto. exists s'0. split; auto. constructor. Qed.
  Lemma shows_app (f : pstep S T) s l1 s1 l2 s2 : shows f s l1 s1 -> shows f s1 l2 s2 -> shows f s (l1 ++ l2) s2.
  Proof. induction 1; intros; cbn; auto; econstructor; eauto. Qed.
  Lemma shows_split (f : pstep S T) l1 : forall s l2 s2, shows f s (l1 ++ l2) s2 -> exists s1, shows f s l1 s1 /\ shows f s1 l2 s2.
  Proof.
    induction l1 as [|x r IH]; intros s l2 s2 A; cbn in A.
    - exists s. split; auto. constructor.
    - inversion A; subst; edestruct IH as (s3 & B & C); eauto; exists s3; (split; auto); econstructor; eauto.
  Qed.
  Lemma runs_app (f : pstep S T) s l1 l2 e : runs f s (l1 ++ l2) e -> exists s1, shows f s l1 s1 /\ runs f s1 l2 e.
  Proof. intros (s' & A & B). apply shows_split in A as (s1 & A1 & A2). exists s1. split; auto. exists s'. auto. Qed.
  Lemma over_error (f : pstep S T) s e : runs f s [] e -> exists s1, ends f s (Ret (zv, Some e)) s1.
  Proof. intros R. destruct (runs_nil _ _ _ R) as (s1 & E & _). eauto. Qed.

  (** the pulling loop over values the body goes on with *)
  Lemma ploop_run {A R} (nx : pstep S T) (body : A -> T -> option (A + R)) onerr l : forall s s1 a a',
    shows nx s (map Some l) s1 ->
    fold_may (fun a v => match body a v with Some (inl a') => Some a' | _ => None end) l a = Some a' ->
    exists n, forall m, n <= m -> forall k, ploop nx body onerr (length l + k) m a s = ploop nx body onerr k m a' s1.
  Proof.
    induction l as [|v r IH]; intros s s1 a a' A0 F; cbn in A0, F.
    - inversion A0; subst. injection F as ->. exists 0. auto.
    - inversion A0 as [|? ? s0 ? ? (n1 & E1) A1|]; subst. destruct (body a v) as [[a1|?]|] eqn:B; try discriminate. destruct (IH _ _ _ _ A1 F) as (n & E).
      exists (max n n1). intros m M k. cbn [length Nat.add ploop]. rewrite E1 by lia. cbn. rewrite B. apply E. lia.
  Qed.
  Lemma ploop_end {A R} (nx : pstep S T) (body : A -> T -> option (A + R)) onerr l s s1 a a' o s2 res :
    shows nx s (map Some l) s1 ->
    fold_may (fun a v => match body a v with Some (inl a') => Some a' | _ => None end) l a = Some a' ->
    ends nx s1 o s2 ->
    match o with
    | Pan => res = None
    | Ret (_, Some e) => res = Some (onerr a' e)
    | Ret (v, None) => match body a' v with None => res = None | Some (inr r) => res = Some r | Some (inl _) => False end
    end ->
    exists n, forall m, n <= m -> ploop nx body onerr m m a s = Done (res, a', s2).
  Proof.
    intros A0 F (n2 & E2) H. destruct (ploop_run nx body onerr l s s1 a a' A0 F) as (n1 & E1).
    exists (n1 + n2 + length l + 1). intros m M. replace m with (length l + Datatypes.S (m - length l - 1)) at 1 by lia. rewrite E1 by lia.
    cbn [ploop]. rewrite E2 by lia. cbn. destruct o as [[v [e|]]|]; subst; auto. destruct (body a' v) as [[|]|]; [contradiction|subst; auto|subst; auto].
  Qed.
End P.
