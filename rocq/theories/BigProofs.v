(** Proofs about big numbers in a heap. *)
From Coq Require Import ZArith List QArith Qabs Lia Bool.
From Verif Require Import Base Iter IterSpec IterProofs GoInt MathInt MathIntSpec MathIntProofs Float FloatSpec FloatProofs FloatProofs2 ConvFloat ConvFloatSpec ConvFloatProofs3 Big BigSpec.
Close Scope Q_scope.
Open Scope Z_scope.
Open Scope go_scope.

Section Heap.
  Context {V : Type}.
  Implicit Types h : list V.
  Lemma store_length h a v : (a < length h)%nat -> length (store h a v) = length h.
  Proof. intros L. unfold store. rewrite app_length, firstn_length. cbn [length]. rewrite skipn_length. lia. Qed.
  Lemma store_same h a v : (a < length h)%nat -> nth_error (store h a v) a = Some v.
  Proof.
    intros L. unfold store. rewrite nth_error_app2 by (rewrite firstn_length; lia).
    rewrite firstn_length. replace (a - Nat.min a (length h))%nat with O by lia. reflexivity.
  Qed.
  Lemma nth_error_skipn' h : forall n i, nth_error (skipn n h) i = nth_error h (n + i).
  Proof. induction h as [|x h IH]; intros [|n] i; cbn; auto. destruct i; reflexivity. Qed.
  Lemma nth_error_firstn' h : forall n i, (i < n)%nat -> nth_error (firstn n h) i = nth_error h i.
  Proof. induction h as [|x h IH]; intros [|n] [|i] L; cbn; auto; try lia. apply IH. lia. Qed.
  Lemma store_other h a b v : (a < length h)%nat -> b <> a -> nth_error (store h a v) b = nth_error h b.
  Proof.
    intros L N. unfold store. destruct (Nat.lt_ge_cases b a) as [B|B].
    - rewrite nth_error_app1 by (rewrite firstn_length; lia). apply nth_error_firstn'. exact B.
    - rewrite nth_error_app2 by (rewrite firstn_length; lia). rewrite firstn_length.
      replace (b - Nat.min a (length h))%nat with (S (b - S a)) by lia. cbn [nth_error]. rewrite nth_error_skipn'. f_equal. lia.
  Qed.
  Lemma load_some h a v : nth_error h a = Some v -> load h a = Done v.
  Proof. unfold load. intros ->. reflexivity. Qed.
  Lemma nth_lt h a v : nth_error h a = Some v -> (a < length h)%nat.
  Proof. intros E. apply nth_error_Some. congruence. Qed.
  Lemma kept_refl h : kept h h. Proof. intros a _. reflexivity. Qed.
  Lemma kept_length h h' : kept h h' -> (length h <= length h')%nat.
  Proof.
    intros K. destruct (Nat.le_gt_cases (length h) (length h')) as [L|L]; [exact L|].
    destruct (length h) as [|n] eqn:E; [lia|]. assert (B : (n < length h)%nat) by lia.
    pose proof (K n B) as Q. assert (nth_error h n <> None) by (apply nth_error_Some; exact B).
    rewrite <- Q in H. apply nth_error_Some in H. lia.
  Qed.
  Lemma kept_trans h1 h2 h3 : kept h1 h2 -> kept h2 h3 -> kept h1 h3.
  Proof. intros A B a L. rewrite B by (pose proof (kept_length _ _ A); lia). apply A. exact L. Qed.
  Lemma kept_app h l : kept h (h ++ l).
  Proof. intros a L. apply nth_error_app1. exact L. Qed.
  Lemma kept_store h0 h a v : kept h0 h -> (length h0 <= a < length h)%nat -> kept h0 (store h a v).
  Proof. intros K L b B. rewrite store_other by lia. apply K. exact B. Qed.
  Lemma points_kept h h' ps vs : kept h h' -> points h ps vs -> points h' ps vs.
  Proof.
    intros K P. induction P as [|p v ps vs (a & -> & E) P IH]; constructor; [|exact IH]. exists a. split; [reflexivity|].
    rewrite K; [exact E|]. eapply nth_lt; eauto.
  Qed.
  Lemma nth_app_len h v : nth_error (h ++ [v]) (length h) = Some v.
  Proof. rewrite nth_error_app2 by lia. rewrite Nat.sub_diag. reflexivity. Qed.
  Lemma store_id h a v : nth_error h a = Some v -> store h a v = h.
  Proof.
    intros E. unfold store. rewrite <- (firstn_skipn a h) at 3. f_equal.
    revert a E. induction h as [|x h IH]; intros [|a] E; cbn in *; try discriminate; [injection E as ->; reflexivity|]. apply IH. exact E.
  Qed.
  Lemma store_store h a v w : (a < length h)%nat -> store (store h a v) a w = store h a w.
  Proof.
    intros L. unfold store at 1 3. f_equal.
    - unfold store. rewrite firstn_app, firstn_firstn, firstn_length. rewrite Nat.min_id.
      replace (a - Nat.min a (length h))%nat with O by lia. cbn. rewrite app_nil_r. reflexivity.
    - f_equal. unfold store. rewrite skipn_app, firstn_length. replace (Nat.min a (length h)) with a by lia.
      rewrite skipn_all2 by (rewrite firstn_length; lia). replace (S a - a)%nat with 1%nat by lia. reflexivity.
  Qed.
End Heap.

(** ** Div *)
Lemma div_bigint_at h de dv qa n d : nth_error h de = Some n -> nth_error h dv = Some d -> (qa < length h)%nat -> qa <> dv -> d <> 0 ->
  div_bigint h de dv (Some qa) = Done (None, Some qa, store h qa (rq n d)).
Proof.
  intros E1 E2 L N D. unfold div_bigint. rewrite (load_some _ _ _ E2). cbn [obind].
  destruct (Z.sgn d =? 0) eqn:Z0; [exfalso; apply Z.eqb_eq in Z0; lia|]. rewrite (load_some _ _ _ E1). cbn [obind].
  assert (E3 : nth_error (store h qa (n ÷ d)) dv = Some d) by (rewrite store_other; auto).
  rewrite (load_some _ _ _ E3). cbn [obind]. rewrite (load_some _ _ _ (store_same h qa (n ÷ d) L)). cbn [obind].
  pose proof (div_big_rq n d 0 D) as R. unfold div_big in R.
  destruct (d =? 0) eqn:D0; [apply Z.eqb_eq in D0; lia|].
  assert (Bit : Z.land (Z.abs d) 1 = 0 \/ Z.land (Z.abs d) 1 = 1).
  { assert (E : Z.land (Z.abs d) 1 = Z.abs d mod 2) by (exact (Z.land_ones (Z.abs d) 1 ltac:(lia))). pose proof (Z.mod_pos_bound (Z.abs d) 2 ltac:(lia)). lia. }
  assert (Sg : Z.sgn (Z.land (Z.abs d) 1) = Z.land (Z.abs d) 1) by (destruct Bit as [-> | ->]; reflexivity). rewrite Sg.
  match goal with |- context [if ?c then _ else _] => destruct c eqn:C end.
  - assert (Q : rq n d = if 0 <=? Z.sgn (n ÷ d) then n ÷ d + 1 else n ÷ d - 1).
    { injection R as R. symmetry. exact R. }
    rewrite Q. rewrite store_store by auto. reflexivity.
  - injection R as R. rewrite <- R. reflexivity.
Qed.
Lemma div_bigint_nil h de dv n d : nth_error h de = Some n -> nth_error h dv = Some d -> d <> 0 ->
  div_bigint h de dv None = Done (None, Some (length h), h ++ [rq n d]).
Proof.
  intros E1 E2 D. pose proof (nth_lt _ _ _ E1) as L1. pose proof (nth_lt _ _ _ E2) as L2.
  assert (Q : div_bigint h de dv None = div_bigint (h ++ [0]) de dv (Some (length h))) by reflexivity. rewrite Q.
  rewrite (div_bigint_at (h ++ [0]) de dv (length h) n d).
  - f_equal. f_equal. unfold store. rewrite firstn_app, firstn_all, Nat.sub_diag. cbn [firstn]. rewrite app_nil_r.
    rewrite skipn_all2 by (rewrite app_length; cbn; lia). reflexivity.
  - rewrite nth_error_app1; auto.
  - rewrite nth_error_app1; auto.
  - rewrite app_length; cbn; lia.
  - lia.
  - exact D.
Qed.

(** the quotient overwrites the divisor *)
Lemma div_bigint_alias h de dv n d : nth_error h de = Some n -> nth_error h dv = Some d -> d <> 0 ->
  2 * Z.abs (Z.rem n d) < Z.abs (Z.quot n d) - 1 ->
  div_bigint h de dv (Some dv) = Done (None, Some dv, store h dv (Z.quot n d)).
Proof.
  intros E1 E2 D B. pose proof (nth_lt _ _ _ E2) as L. unfold div_bigint. rewrite (load_some _ _ _ E2). cbn [obind].
  destruct (Z.sgn d =? 0) eqn:Z0; [exfalso; apply Z.eqb_eq in Z0; lia|]. rewrite (load_some _ _ _ E1). cbn [obind].
  rewrite !(load_some _ _ _ (store_same h dv (n ÷ d) L)). cbn [obind].
  set (q := n ÷ d) in *. set (r := Z.abs (Z.rem n d)) in *.
  assert (Hf : Z.shiftr (Z.abs q) 1 = Z.abs q / 2) by (rewrite Z.shiftr_div_pow2 by lia; reflexivity). rewrite Hf.
  assert (r < Z.abs q / 2) by (pose proof (Z.div_mod (Z.abs q) 2 ltac:(lia)); pose proof (Z.mod_pos_bound (Z.abs q) 2 ltac:(lia)); lia).
  destruct (Z.leb_spec (Z.abs q / 2) r); [lia|]. destruct (Z.ltb_spec (Z.abs q / 2) r); [lia|].
  rewrite !andb_false_r. reflexivity.
Qed.

(** ** big.Float arithmetic *)
Lemma Qfr (q : Q) : (fr (Qnum q) (Zpos (Qden q)) == q)%Q.
Proof. rewrite <- (Qmake_fr (Qnum q) (Zpos (Qden q))) by lia. destruct q; reflexivity. Qed.

Lemma to_bits_nearest p q : 1 <= p -> exists y, denotes (to_bits p q) y /\ nearest_short 2 p q y /\ nonneg_mantissa (to_bits p q).
Proof.
  intros Hp. destruct (round_literal_ok p (Qnum q <? 0) (Z.abs (Qnum q)) (Zpos (Qden q)) Hp (Z.abs_nonneg _) (Pos2Z.is_pos _)) as (y & D & M & N).
  exists y. split; [exact D|]. split; [|exact M].
  assert (E : (q == if Qnum q <? 0 then - fr (Z.abs (Qnum q)) (Zpos (Qden q)) else fr (Z.abs (Qnum q)) (Zpos (Qden q)))%Q).
  { rewrite <- (Qfr q) at 1. destruct (Qnum q <? 0) eqn:C.
    - replace (Z.abs (Qnum q)) with (- Qnum q) by lia. unfold fr. rewrite inject_Z_opp. field. apply injZ_nz. lia.
    - replace (Z.abs (Qnum q)) with (Qnum q) by lia. reflexivity. }
  destruct N as [Sh N]. split; [exact Sh|]. intros z Z1. specialize (N z Z1).
  revert E N. destruct (Qnum q <? 0); intros E N; rewrite E; exact N.
Qed.

Lemma digits_0 e : (digits 2 0 e == 0)%Q.
Proof. unfold digits. change (inject_Z 0) with 0%Q. ring. Qed.
Lemma fzero_value x : fzero x = true -> (fvalue x == 0)%Q.
Proof.
  intros Z0. destruct x as [|b|b m e]; cbn in Z0; try discriminate. apply Z.eqb_eq in Z0. subst m.
  apply denotes_value. cbn. destruct b; symmetry; apply digits_0.
Qed.
Lemma fzero_iff x q : denotes x q -> fzero x = true <-> (q == 0)%Q.
Proof.
  intros D. destruct x as [|b|b m e]; cbn in D; try contradiction. cbn. split; intros H.
  - apply Z.eqb_eq in H. subst m. rewrite D. destruct b; apply digits_0.
  - apply Z.eqb_eq. rewrite D in H. unfold digits in H. apply Qmult_integral in H. destruct H as [H|H].
    + unfold Qeq in H. cbn in H. destruct b; lia.
    + exfalso. revert H. apply P_nz. lia.
Qed.

(** adding finite numbers *)
Lemma bf_add_finite z x y qx qy : 1 <= res_prec z x y -> bf_denotes x qx -> bf_denotes y qy ->
  exists r q, bf_add z x y = Done (res_prec z x y, r) /\ denotes r q /\ nearest_short 2 (res_prec z x y) (qx + qy) q /\ nonneg_mantissa r.
Proof.
  intros Hp Dx Dy. set (p := res_prec z x y) in *. unfold bf_add. fold p. unfold bf_denotes in *.
  assert (F : forall u v, snd x = u -> snd y = v -> finite u -> finite v -> exists r q,
    (if fzero u && fzero v then Fin (fneg u && fneg v) 0 0 else to_bits p (fvalue u + fvalue v)) = r /\ denotes r q /\ nearest_short 2 p (qx + qy) q /\ nonneg_mantissa r).
  { intros u v Eu Ev Fu Fv. rewrite Eu in Dx. rewrite Ev in Dy. pose proof (denotes_value _ _ Dx) as Vx. pose proof (denotes_value _ _ Dy) as Vy.
    destruct (fzero u && fzero v) eqn:C.
    - apply andb_true_iff in C. destruct C as [C1 C2]. eexists; exists 0%Q. split; [reflexivity|].
      split; [cbn; destruct (fneg u && fneg v); symmetry; apply digits_0|]. split; [|cbn; lia].
      apply (fzero_iff _ _ Dx) in C1. apply (fzero_iff _ _ Dy) in C2. split.
      + exists 0, 0. split; [apply Z.pow_pos_nonneg; lia|symmetry; apply digits_0].
      + intros w _. assert (E : (qx + qy - 0 == 0)%Q) by (rewrite C1, C2; ring). rewrite E. change (Qabs 0) with 0%Q. apply Qabs_nonneg.
    - destruct (to_bits_nearest p (fvalue u + fvalue v)%Q Hp) as (q & D & N & M). eexists; exists q. split; [reflexivity|].
      split; [exact D|]. split; [|exact M]. destruct N as [Sh N]. split; [exact Sh|]. intros w W. specialize (N w W).
      rewrite Vx, Vy in N. exact N. }
  destruct (snd x) as [|bx|bx mx ex] eqn:Ex; cbn in Dx; try contradiction.
  destruct (snd y) as [|by_|by_ my ey] eqn:Ey; cbn in Dy; try contradiction.
  destruct (F _ _ eq_refl eq_refl Logic.I Logic.I) as (r & q & E & D & N & M). exists r, q. rewrite E. auto.
Qed.

(** ** Streams *)
Section Streams.
  Context {St V : Type} (o : bigops V) (nx0 : stepfn St (option addr)).
  Notation nx := (@hands St V nx0).

  Lemma hands_returns s r s' h : returns nx0 s r s' -> returns nx (s, h) r (s', h).
  Proof. intros [n H]. exists n. intros m L. unfold hands. cbn [fst snd]. rewrite H by exact L. reflexivity. Qed.

  (** the body of the loop, run on all pointers *)
  Fixpoint body_fold {A} (body : A -> option addr -> list V -> outcome (A * list V)) (a : A) (ps : list (option addr)) (h : list V)
    : outcome (A * list V) :=
    match ps with
    | [] => Done (a, h)
    | p :: ps' => let! (a', h') := body a p h in body_fold body a' ps' h'
    end.
  Lemma heap_loop_run {A R} (body : A -> option addr -> list V -> outcome (A * list V)) (onerr : A -> err -> list V -> outcome (R * list V)) :
    forall ps s s1 s2 e a h a' h' res h'', emits nx0 s ps s1 -> fails nx0 s1 e s2 -> body_fold body a ps h = Done (a', h') ->
    onerr a' e h' = Done (res, h'') ->
    exists n, forall m loop, (n <= m)%nat -> (length ps < loop)%nat -> heap_loop nx body onerr loop m a (s, h) = Done (res, (s2, h'')).
  Proof.
    induction ps as [|p ps IH]; intros s s1 s2 e a h a' h' res h'' Em Fa B O.
    - inversion Em; subst. destruct Fa as [v [n H]]. cbn in B. injection B as <- <-. exists n. intros m loop L1 L2.
      destruct loop as [|loop]; [cbn in L2; lia|]. cbn [heap_loop]. unfold hands. cbn [fst snd]. rewrite H by exact L1. cbn [obind snd fst].
      rewrite O. reflexivity.
    - inversion Em as [|? ? sa ? ? R1 R2]; subst. cbn in B. destruct (body a p h) as [[a1 h1]| |] eqn:Bo; try discriminate. cbn in B.
      destruct (IH _ _ _ _ _ _ _ _ _ _ R2 Fa B O) as [n1 H1]. destruct R1 as [n0 H0]. exists (Nat.max n0 n1). intros m loop L1 L2.
      destruct loop as [|loop]; [cbn in L2; lia|]. cbn [heap_loop]. unfold hands at 1. cbn [fst snd]. rewrite H0 by lia. cbn [obind snd fst].
      rewrite Bo. cbn [obind fst snd]. apply H1; [lia|]. cbn in L2. lia.
  Qed.
  Lemma heap_loop_panics {A R} (body : A -> option addr -> list V -> outcome (A * list V)) (onerr : A -> err -> list V -> outcome (R * list V)) :
    forall ps s s1 a h, emits nx0 s ps s1 -> body_fold body a ps h = Panicked ->
    exists n, forall m loop, (n <= m)%nat -> (length ps < loop)%nat -> heap_loop nx body onerr loop m a (s, h) = Panicked.
  Proof.
    induction ps as [|p ps IH]; intros s s1 a h Em B; [discriminate|].
    inversion Em as [|? ? sa ? ? R1 R2]; subst. cbn in B. destruct R1 as [n0 H0].
    destruct (body a p h) as [[a1 h1]| |] eqn:Bo; try discriminate; cbn in B.
    - destruct (IH _ _ _ _ R2 B) as [n1 H1]. exists (Nat.max n0 n1). intros m loop L1 L2.
      destruct loop as [|loop]; [cbn in L2; lia|]. cbn [heap_loop]. unfold hands at 1. cbn [fst snd]. rewrite H0 by lia. cbn [obind snd fst].
      rewrite Bo. cbn [obind fst snd]. apply H1; [lia|]. cbn in L2. lia.
    - exists n0. intros m loop L1 L2. destruct loop as [|loop]; [cbn in L2; lia|]. cbn [heap_loop]. unfold hands at 1. cbn [fst snd]. rewrite H0 by lia.
      cbn [obind snd fst]. rewrite Bo. reflexivity.
  Qed.

  (** AbsBigOps *)
  Definition abs_at (h : list V) (p : option addr) : list V :=
    match p with Some a => match nth_error h a with Some v => store h a (b_abs o v) | None => h end | None => h end.
  Lemma abs_emits ps : forall s s1 h vs, emits nx0 s ps s1 -> points h ps vs ->
    emits (next (st_abs_big o nx)) (ofIter (s, h)) ps (ofIter (s1, fold_left abs_at ps h)).
  Proof.
    induction ps as [|p ps IH]; intros s s1 h vs Em P.
    - inversion Em; subst. constructor.
    - inversion Em as [|? ? sa ? ? R1 R2]; subst. inversion P as [|? v ? vs' Pp P']; subst. destruct Pp as (a & -> & E).
      pose proof (nth_lt _ _ _ E) as L.
      econstructor.
      + apply next_value. destruct R1 as [n H]. exists n. intros m Lm. unfold st_abs_big, hands. cbn [fst snd]. rewrite H by exact Lm.
        cbn [obind fst snd]. unfold deref. rewrite (load_some _ _ _ E). cbn [obind]. reflexivity.
      + cbn [fold_left abs_at]. rewrite E.
        assert (exists vs2, points (store h a (b_abs o v)) ps vs2) as [vs2 P2].
        { clear -P' L. induction P' as [|q w qs ws (b & -> & F) P IH]; [exists []; constructor|]. destruct IH as [ws2 IH].
          exists ((if Nat.eq_dec b a then b_abs o v else w) :: ws2). constructor; [|exact IH]. exists b. split; [reflexivity|].
          destruct (Nat.eq_dec b a) as [->|N]; [apply store_same; exact L|]. rewrite store_other; auto. }
        eapply IH; eauto.
  Qed.
  Lemma abs_fails s e s' h : fails nx0 s e s' -> fails (st_abs_big o nx) (s, h) e (s', h).
  Proof.
    intros [v [n H]]. exists None. exists n. intros m L. unfold st_abs_big, hands. cbn [fst snd]. rewrite H by exact L. reflexivity.
  Qed.
  (** what the heap looks like afterwards *)
  Lemma abs_heap (idem : forall v, b_abs o (b_abs o v) = b_abs o v) ps : forall h vs, points h ps vs -> forall a,
    nth_error (fold_left abs_at ps h) a =
      if existsb (fun p => match p with Some b => Nat.eqb a b | None => false end) ps then option_map (b_abs o) (nth_error h a) else nth_error h a.
  Proof.
    induction ps as [|p ps IH]; intros h vs P a; [reflexivity|]. inversion P as [|? v ? vs' Pp P']; subst. destruct Pp as (b & -> & E).
    pose proof (nth_lt _ _ _ E) as L. cbn [fold_left abs_at existsb]. rewrite E.
    assert (exists vs2, points (store h b (b_abs o v)) ps vs2) as [vs2 P2].
    { clear -P' L. induction P' as [|q w qs ws (c & -> & F) P IH]; [exists []; constructor|]. destruct IH as [ws2 IH].
      exists ((if Nat.eq_dec c b then b_abs o v else w) :: ws2). constructor; [|exact IH]. exists c. split; [reflexivity|].
      destruct (Nat.eq_dec c b) as [->|N]; [apply store_same; exact L|]. rewrite store_other; auto. }
    rewrite (IH _ _ P2 a). destruct (Nat.eqb_spec a b) as [->|N].
    - rewrite store_same by exact L. rewrite E. cbn [option_map orb]. rewrite idem.
      match goal with |- context [if ?c then _ else _] => destruct c end; reflexivity.
    - rewrite store_other by auto. reflexivity.
  Qed.

  (** adding into a fresh object *)
  Lemma add_into_ok sum a b x y z v h : nth_error h a = Some x -> nth_error h b = Some y -> nth_error h sum = Some z -> b_add o z x y = Done v ->
    add_into o sum (Some a) (Some b) h = Done (Some sum, store h sum v).
  Proof.
    intros E1 E2 E3 A. unfold add_into, deref. rewrite (load_some _ _ _ E1), (load_some _ _ _ E2), (load_some _ _ _ E3). cbn [obind]. rewrite A. reflexivity.
  Qed.

  (** the numbers added one after the other into the same object *)
  Fixpoint vfold (acc : V) (vs : list V) : outcome V :=
    match vs with [] => Done acc | y :: vs' => let! v := b_add o acc acc y in vfold v vs' end.
  Lemma store_last (h : list V) x v : store (h ++ [x]) (length h) v = h ++ [v].
  Proof.
    unfold store. rewrite firstn_app, firstn_all, Nat.sub_diag. cbn [firstn]. rewrite app_nil_r.
    rewrite skipn_all2 by (rewrite app_length; cbn; lia). reflexivity.
  Qed.
  Lemma sum_fold (h : list V) : forall ps vs acc, points h ps vs ->
    body_fold (add_into o (length h)) (Some (length h)) ps (h ++ [acc]) =
      match vfold acc vs with Done r => Done (Some (length h), h ++ [r]) | Panicked => Panicked | OutOfFuel => OutOfFuel end.
  Proof.
    induction ps as [|p ps IH]; intros vs acc P; inversion P as [|? v ? vs' (a & -> & E) P']; subst; [reflexivity|].
    cbn [body_fold vfold]. unfold add_into at 1, deref. rewrite (load_some _ _ acc) by apply nth_app_len. cbn [obind].
    rewrite (load_some _ _ v) by (rewrite nth_error_app1; [exact E|eapply nth_lt; eauto]). cbn [obind].
    destruct (b_add o acc acc v) as [w| |]; cbn [obind]; try reflexivity. rewrite store_last. apply IH. exact P'.
  Qed.
  Lemma sum_many s p0 p1 ps h v0 v1 vs r : yields nx0 s (p0 :: p1 :: ps) EOI -> points h (p0 :: p1 :: ps) (v0 :: v1 :: vs) ->
    (let! w := b_add o (b_int o 0) v0 v1 in vfold w vs) = Done r ->
    exists s', emits (next (st_sum_big o nx (fst (sum_big_new o h)))) (ofIter (false, (s, snd (sum_big_new o h))))
      [Some (length h)] (ofIter (true, (s', h ++ [r]))).
  Proof.
    intros Y P F. destruct (yields_cons_inv _ _ _ _ _ Y) as (s0 & R0 & (s1 & Em & St1)).
    destruct (stuck_fails _ _ _ St1) as (s2 & Fa & _). exists s2. apply ofIter_emits, emits_one.
    inversion P as [|? ? ? ? (a0 & -> & E0) P1]; subst. inversion P1 as [|? ? ? ? (a1 & -> & E1) P2]; subst.
    pose proof (nth_lt _ _ _ E0) as L0. pose proof (nth_lt _ _ _ E1) as L1.
    destruct (b_add o (b_int o 0) v0 v1) as [w| |] eqn:B; try discriminate. cbn [obind] in F.
    assert (BF : body_fold (add_into o (length h)) (Some a0) (Some a1 :: ps) (h ++ [b_int o 0]) = Done (Some (length h), h ++ [r])).
    { cbn [body_fold]. unfold add_into at 1, deref. rewrite (load_some _ _ v0) by (rewrite nth_error_app1; auto). cbn [obind].
      rewrite (load_some _ _ v1) by (rewrite nth_error_app1; auto). cbn [obind]. rewrite (load_some _ _ _ (nth_app_len h _)). cbn [obind].
      rewrite B. cbn [obind]. rewrite store_last. pose proof (sum_fold h ps vs w P2) as SF. rewrite F in SF. exact SF. }
    destruct (heap_loop_run (add_into o (length h))
      (fun result e h => Done (match e with EOI => (result, None) | _ => (None, Some e) end, h)) _ _ _ _ _ _ _ _ _ _ _ Em Fa BF eq_refl) as [n1 H1].
    destruct R0 as [n0 H0]. exists (Nat.max n0 (Nat.max n1 (S (S (length ps))))). intros m L. unfold st_sum_big, sum_big_new, alloc. cbn [fst snd].
    unfold hands at 1. cbn [fst snd]. rewrite H0 by lia. cbn [obind fst snd]. rewrite H1 by (cbn [length]; lia). reflexivity.
  Qed.
  Lemma sum_panics s p0 p1 ps h v0 v1 vs : yields nx0 s (p0 :: p1 :: ps) EOI -> points h (p0 :: p1 :: ps) (v0 :: v1 :: vs) ->
    (let! w := b_add o (b_int o 0) v0 v1 in vfold w vs) = Panicked ->
    panics (next (st_sum_big o nx (fst (sum_big_new o h)))) (ofIter (false, (s, snd (sum_big_new o h)))).
  Proof.
    intros Y P F. destruct (yields_cons_inv _ _ _ _ _ Y) as (s0 & R0 & (s1 & Em & St1)).
    inversion P as [|? ? ? ? (a0 & -> & E0) P1]; subst. inversion P1 as [|? ? ? ? (a1 & -> & E1) P2]; subst.
    pose proof (nth_lt _ _ _ E0) as L0. pose proof (nth_lt _ _ _ E1) as L1.
    assert (BF : body_fold (add_into o (length h)) (Some a0) (Some a1 :: ps) (h ++ [b_int o 0]) = Panicked).
    { cbn [body_fold]. unfold add_into at 1, deref. rewrite (load_some _ _ v0) by (rewrite nth_error_app1; auto). cbn [obind].
      rewrite (load_some _ _ v1) by (rewrite nth_error_app1; auto). cbn [obind]. rewrite (load_some _ _ _ (nth_app_len h _)). cbn [obind].
      destruct (b_add o (b_int o 0) v0 v1) as [w| |] eqn:B; try discriminate; [|reflexivity]. cbn [obind] in *. rewrite store_last.
      pose proof (sum_fold h ps vs w P2) as SF. rewrite F in SF. exact SF. }
    destruct (heap_loop_panics (add_into o (length h))
      (fun result e h => Done (match e with EOI => (result, None) | _ => (None, Some e) end, h)) _ _ _ _ _ Em BF) as [n1 H1].
    destruct R0 as [n0 H0]. exists (Nat.max n0 (Nat.max n1 (S (S (length ps))))). intros m L. unfold next. cbn [buffer nth_error length Nat.sub fn_live ofIter src].
    unfold st_sum_big, sum_big_new, alloc. cbn [fst snd].
    unfold hands at 1. cbn [fst snd]. rewrite H0 by lia. cbn [obind fst snd]. rewrite H1 by (cbn [length]; lia). reflexivity.
  Qed.
  Lemma sum_one s p h : yields nx0 s [p] EOI ->
    exists s', emits (next (st_sum_big o nx (fst (sum_big_new o h)))) (ofIter (false, (s, snd (sum_big_new o h))))
      [p] (ofIter (true, (s', h ++ [b_int o 0]))).
  Proof.
    intros Y. destruct (yields_cons_inv _ _ _ _ _ Y) as (s0 & R0 & (s1 & Em & St1)). inversion Em; subst.
    destruct (stuck_fails _ _ _ St1) as (s2 & Fa & _). exists s2. apply ofIter_emits, emits_one.
    destruct (heap_loop_run (add_into o (length h))
      (fun result e h => Done (match e with EOI => (result, None) | _ => (None, Some e) end, h)) [] s1 s1 _ _ p (h ++ [b_int o 0]) _ _ _ _ Em Fa eq_refl eq_refl) as [n1 H1].
    destruct R0 as [n0 H0]. exists (Nat.max n0 (Nat.max n1 1)). intros m L. unfold st_sum_big, sum_big_new, alloc. cbn [fst snd].
    unfold hands at 1. cbn [fst snd]. rewrite H0 by lia. cbn [obind fst snd]. rewrite H1 by (cbn [length]; lia). reflexivity.
  Qed.
  Lemma sum_empty s h e : yields nx0 s [] e ->
    yields (next (st_sum_big o nx (fst (sum_big_new o h)))) (ofIter (false, (s, snd (sum_big_new o h)))) [] e.
  Proof.
    intros Y. apply yields_nil_inv in Y. destruct (stuck_fails _ _ _ Y) as (s2 & [v [n0 H0]] & _).
    eapply ofIter_yields; [constructor|]. exists None, n0. intros m L. unfold st_sum_big, sum_big_new, alloc. cbn [fst snd].
    unfold hands. cbn [fst snd]. rewrite H0 by lia. reflexivity.
  Qed.
  Lemma sum_done sum w : stuck (next (st_sum_big o nx sum)) (ofIter (true, w)) EOI.
  Proof. eapply ofIter_stuck. exists None, O. intros m _. reflexivity. Qed.
  Lemma sum_error s p0 ps h v0 vs w r e : yields nx0 s (p0 :: ps) e -> e <> EOI -> points h (p0 :: ps) (v0 :: vs) ->
    (vs <> [] -> (let! w := b_add o (b_int o 0) v0 (hd w vs) in vfold w (tl vs)) = Done r) ->
    yields (next (st_sum_big o nx (fst (sum_big_new o h)))) (ofIter (false, (s, snd (sum_big_new o h)))) [] e.
  Proof.
    intros Y Ne P F. destruct (yields_cons_inv _ _ _ _ _ Y) as (s0 & R0 & (s1 & Em & St1)).
    destruct (stuck_fails _ _ _ St1) as (s2 & Fa & _).
    assert (BF : exists p' h', body_fold (add_into o (length h)) p0 ps (h ++ [b_int o 0]) = Done (p', h')).
    { inversion P as [|? ? ? ? (a0 & -> & E0) P1]; subst. pose proof (nth_lt _ _ _ E0) as L0.
      destruct P1 as [|p1 v1 ps vs (a1 & -> & E1) P2]; [eexists; eexists; reflexivity|]. pose proof (nth_lt _ _ _ E1) as L1.
      specialize (F ltac:(discriminate)). cbn [hd tl] in F. exists (Some (length h)), (h ++ [r]).
      cbn [body_fold]. unfold add_into at 1, deref. rewrite (load_some _ _ v0) by (rewrite nth_error_app1; auto). cbn [obind].
      rewrite (load_some _ _ v1) by (rewrite nth_error_app1; auto). cbn [obind]. rewrite (load_some _ _ _ (nth_app_len h _)). cbn [obind].
      destruct (b_add o (b_int o 0) v0 v1) as [w1| |] eqn:B; try discriminate. cbn [obind] in *. rewrite store_last.
      pose proof (sum_fold h ps vs w1 P2) as SF. rewrite F in SF. exact SF. }
    destruct BF as (p' & h' & BF).
    destruct (heap_loop_run (add_into o (length h))
      (fun result e h => Done (match e with EOI => (result, None) | _ => (None, Some e) end, h)) _ _ _ _ _ _ _ _ _ _ _ Em Fa BF eq_refl) as [n1 H1].
    eapply (ofIter_yields _ _ _ _ _ (true, (s2, h'))); [constructor|].
    destruct R0 as [n0 H0]. exists None, (Nat.max n0 (Nat.max n1 (S (length ps)))). intros m L. unfold st_sum_big, sum_big_new, alloc. cbn [fst snd].
    unfold hands at 1. cbn [fst snd]. rewrite H0 by lia. cbn [obind fst snd]. rewrite H1 by (cbn [length]; lia). destruct e; try reflexivity; congruence.
  Qed.

  (** AvgBigOps *)
  Fixpoint afold (s c : V) (vs : list V) : outcome (V * V) :=
    match vs with
    | [] => Done (s, c)
    | y :: vs' => let! s' := b_add o s s y in let! c' := b_add o c c (b_int o 1) in afold s' c' vs'
    end.
  Definition avg_body (h : list V) : unit -> option addr -> list V -> outcome (unit * list V) := fun _ val h1 =>
    let! (_, h1) := add_into o (length h) (Some (length h)) val h1 in
    let! (_, h1) := add_into o (S (length h)) (Some (S (length h))) (Some (S (S (length h)))) h1 in
    Done (tt, h1).
  Lemma nth3 h (x y z : V) : nth_error (h ++ [x; y; z]) (length h) = Some x /\ nth_error (h ++ [x; y; z]) (S (length h)) = Some y /\
    nth_error (h ++ [x; y; z]) (S (S (length h))) = Some z.
  Proof.
    rewrite !nth_error_app2 by lia. replace (length h - length h)%nat with 0%nat by lia. replace (S (length h) - length h)%nat with 1%nat by lia.
    replace (S (S (length h)) - length h)%nat with 2%nat by lia. auto.
  Qed.
  Lemma store3 h (x y z v : V) : store (h ++ [x; y; z]) (length h) v = h ++ [v; y; z] /\ store (h ++ [x; y; z]) (S (length h)) v = h ++ [x; v; z].
  Proof.
    unfold store. split.
    - rewrite firstn_app, firstn_all, Nat.sub_diag, skipn_app. rewrite skipn_all2 by lia. replace (S (length h) - length h)%nat with 1%nat by lia.
      cbn. rewrite app_nil_r. reflexivity.
    - rewrite firstn_app, skipn_app. rewrite firstn_all2, skipn_all2 by lia. replace (S (length h) - length h)%nat with 1%nat by lia.
      replace (S (S (length h)) - length h)%nat with 2%nat by lia. cbn. rewrite <- app_assoc. reflexivity.
  Qed.
  Lemma avg_fold (h : list V) : forall ps vs x c, points h ps vs ->
    body_fold (avg_body h) tt ps (h ++ [x; c; b_int o 1]) =
      match afold x c vs with Done (x', c') => Done (tt, h ++ [x'; c'; b_int o 1]) | Panicked => Panicked | OutOfFuel => OutOfFuel end.
  Proof.
    induction ps as [|p ps IH]; intros vs x c P; inversion P as [|? v ? vs' (a & -> & E) P']; subst; [reflexivity|].
    cbn [body_fold afold]. unfold avg_body at 1. destruct (nth3 h x c (b_int o 1)) as (N1 & N2 & N3).
    unfold add_into at 1, deref. rewrite (load_some _ _ _ N1). cbn [obind].
    rewrite (load_some _ _ v) by (rewrite nth_error_app1; [exact E|eapply nth_lt; eauto]). cbn [obind].
    destruct (b_add o x x v) as [x1| |]; cbn [obind]; try reflexivity. rewrite (proj1 (store3 h x c (b_int o 1) x1)).
    destruct (nth3 h x1 c (b_int o 1)) as (M1 & M2 & M3). unfold add_into at 1, deref. rewrite (load_some _ _ _ M2), (load_some _ _ _ M3). cbn [obind].
    destruct (b_add o c c (b_int o 1)) as [c1| |]; cbn [obind]; try reflexivity. rewrite (proj2 (store3 h x1 c (b_int o 1) c1)). apply IH. exact P'.
  Qed.
  Lemma avg_ok s ps h vs x c er q h' : yields nx0 s ps EOI -> points h ps vs -> afold (b_int o 0) (b_int o 0) vs = Done (x, c) ->
    b_sign o c <> 0 -> b_div o (h ++ [x; c; b_int o 1]) (length h) (S (length h)) None = Done (er, q, h') ->
    exists s', emits (next (st_avg_big o nx)) (ofIter (s, h)) [q] (ofIter (s', h')) /\ stuck nx0 s' EOI.
  Proof.
    intros (s1 & Em & St1) P F C D. destruct (stuck_fails _ _ _ St1) as (s2 & Fa & St2). exists s2. split; [|exact St2]. apply ofIter_emits, emits_one.
    pose proof (avg_fold h ps vs (b_int o 0) (b_int o 0) P) as BF. rewrite F in BF.
    match goal with |- returns ?f _ _ _ => set (F0 := f) end.
    destruct (heap_loop_run (avg_body h) (fun _ e h1 =>
         match e with
         | EOI =>
             let! c := load h1 (S (length h)) in
             if b_sign o c =? 0 then Done ((None, Some e), h1) else
             let! (x, h1) := b_div o h1 (length h) (S (length h)) None in
             Done ((snd x, None), h1)
         | _ => Done ((None, Some e), h1)
         end) _ _ _ _ _ _ _ _ _ (q, None) h' Em Fa BF) as [n1 H1].
    { destruct (nth3 h x c (b_int o 1)) as (N1 & N2 & N3). rewrite (load_some _ _ _ N2). cbn [obind].
      destruct (b_sign o c =? 0) eqn:Z0; [apply Z.eqb_eq in Z0; contradiction|]. rewrite D. reflexivity. }
    exists (Nat.max n1 (S (length ps))). intros m L. unfold F0, st_avg_big, alloc. rewrite !app_length. cbn [length].
    rewrite <- !app_assoc. cbn [app]. replace (length h + 1)%nat with (S (length h)) by lia. replace (S (length h) + 1)%nat with (S (S (length h))) by lia.
    pose proof (H1 m m ltac:(lia) ltac:(lia)) as Q. exact Q.
  Qed.
End Streams.
