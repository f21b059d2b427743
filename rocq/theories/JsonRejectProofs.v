(** The grammar of accepted documents is prefix free, and broken token sequences are never accepted. *)
From Verif Require Import Base Iter IterSpec IterProofs Union Rest Json JsonLex JsonParse JsonSpec JsonTokProofs JsonParseProofs.
Open Scope nat_scope.

Definition lnx : stepfn (list token) token := fun _ l => match l with [] => Done ((zv, Some EOI), []) | t :: r => Done ((t, None), r) end.
Definition lun (l : list token) (t : token) : list token := t :: l.
Lemma lnx_yields l : yields lnx l l EOI.
Proof.
  exists []. split.
  - induction l as [|t l IH]; [constructor|]. apply (emits_cons lnx (t :: l) t l l []); auto. exists 0. intros; reflexivity.
  - cofix CH. apply (stuck_intro lnx [] EOI []); [exists 0; intros; reflexivity|exact CH].
Qed.
Lemma lnx_unique l ts : yields lnx l ts EOI -> l = ts.
Proof.
  intros (s' & E & K). induction E as [s|s v s1 ts s2 R E IH].
  - inversion K as [s0 e0 s1 R X]; subst. destruct R as [n R]. specialize (R n (le_n n)). destruct s; cbn in R; [auto|discriminate].
  - rewrite <- (IH K). destruct R as [n R]. specialize (R n (le_n n)). destruct s; cbn in R; inversion R; auto.
Qed.
Lemma prefix_free ts1 t1 r1 ts2 t2 r2 : gval false ts1 t1 -> gval false ts2 t2 -> ts1 ++ r1 = ts2 ++ r2 -> Forall tok_ok (ts1 ++ r1) -> ts1 = ts2.
Proof.
  intros G1 G2 E F.
  assert (F1 : Forall tok_ok ts1) by (apply Forall_app in F; tauto).
  assert (F2 : Forall tok_ok ts2) by (rewrite E in F; apply Forall_app in F; tauto).
  pose proof (proj1 (accepts lnx lun EOI (fun i v => ex_intro _ 0 (fun m _ => eq_refl)) false) ts1 t1 G1 F1) as A1.
  pose proof (proj1 (accepts lnx lun EOI (fun i v => ex_intro _ 0 (fun m _ => eq_refl)) false) ts2 t2 G2 F2) as A2.
  destruct (A1 (ts1 ++ r1) r1 (lnx_yields _)) as (i1 & O1 & Y1). destruct (A2 (ts1 ++ r1) r2) as (i2 & O2 & Y2); [rewrite E; apply lnx_yields|].
  destruct (ok2_det _ _ _ _ _ O1 O2) as [_ ->]. apply lnx_unique in Y1. apply lnx_unique in Y2. subst. apply app_inv_tail in E. auto.
Qed.

Lemma items_peel l : Forall (fun x => gval false (fst x) (snd x)) l -> forall toks es r tail, gelems false toks es -> Forall tok_ok (toks ++ r) ->
  toks ++ r = items l ++ tail -> exists toks2 es2, gelems false toks2 es2 /\ toks2 ++ r = tail.
Proof.
  induction 1 as [|[ts t] l G _ IH]; intros toks es r tail GE OK E; [cbn in E; eauto|].
  unfold items in E. cbn [flat_map fst snd] in *. rewrite <- !app_assoc in E. cbn [app] in E. destruct GE as [ts' t' c G' C|ts' t' cm ts'' l' G' C GE].
  - rewrite <- app_assoc in *. cbn in *. assert (ts' = ts) as -> by (eapply prefix_free; eauto). apply app_inv_head in E. inversion E. subst. discriminate.
  - rewrite <- app_assoc in *. cbn in *. assert (ts' = ts) as -> by (eapply prefix_free; eauto). apply app_inv_head in E. inversion E as [[E1 E2]]. subst.
    apply Forall_app in OK as [_ OK]. inversion OK; subst. eapply IH; eauto.
Qed.

Lemma members_peel l : members_ok l -> forall seen toks ms r tail, gmembers false seen toks ms -> Forall tok_ok (toks ++ r) ->
  toks ++ r = members l ++ tail ->
  (exists seen2 toks2 ms2, gmembers false seen2 toks2 ms2 /\ toks2 ++ r = tail /\ forall k, In k seen \/ In k (map (fun x => fst (fst x)) l) -> In k seen2) \/
  (exists c, tail = c :: r /\ ttyp c = tCBrace).
Proof.
  induction 1 as [|[[k ts] t] l G _ IH]; intros seen toks ms r tail GM OK E; [left; exists seen, toks, ms; cbn in E; split; auto; split; auto; intros k [I|[]]; auto|].
  unfold members in E. cbn [flat_map fst snd] in *. cbn [app] in E. rewrite <- !app_assoc in E. cbn [app] in E.
  destruct GM as [seen k' colon ts' t' c NI CL G' C|seen k' colon ts' t' cm c _ NI CL G' CM C|seen k' colon ts' t' cm ts2 m NI CL G' CM GM]; cbn [app] in *.
  - rewrite <- app_assoc in *. cbn in *. inversion OK as [|? ? _ OK1]; subst. inversion OK1 as [|? ? _ OK2]; subst. inversion E as [[E1 E2 E3]]. subst.
    assert (ts' = ts) as -> by (eapply prefix_free; eauto). apply app_inv_head in E3. inversion E3. subst. discriminate.
  - rewrite <- app_assoc in *. cbn in *. inversion OK as [|? ? _ OK1]; subst. inversion OK1 as [|? ? _ OK2]; subst. inversion E as [[E1 E2 E3]]. subst.
    assert (ts' = ts) as -> by (eapply prefix_free; eauto). apply app_inv_head in E3. inversion E3 as [[E4 E5]]. subst.
    destruct l as [|[[k2 ts2] t2] l]; [right; exists c; auto|]. cbn in E5. inversion E5. subst. discriminate.
  - rewrite <- app_assoc in *. cbn in *. inversion OK as [|? ? _ OK1]; subst. inversion OK1 as [|? ? _ OK2]; subst. inversion E as [[E1 E2 E3]]. subst.
    assert (ts' = ts) as -> by (eapply prefix_free; eauto). apply app_inv_head in E3. inversion E3 as [[E4 E5]]. subst.
    apply Forall_app in OK2 as [_ OK2]. inversion OK2 as [|? ? _ OK3]; subst.
    destruct (IH _ _ _ _ _ GM OK3 E5) as [(seen2 & toks2 & ms2 & A & B & C)|D]; [left|right; auto].
    exists seen2, toks2, ms2. split; auto. split; auto. intros k0 [I|[<-|I]]; apply C; [left; right|left; left|right]; auto.
Qed.

Lemma broken_dead bts : broken bts -> forall ts' t r r', gval false ts' t -> Forall tok_ok (bts ++ r) -> bts ++ r = ts' ++ r' -> False.
Proof.
  assert (ARR : forall l tail, items_ok l -> (l = [] -> hd tCBracket (map ttyp tail) <> tCBracket) ->
    forall ts' t r', gval false ts' t -> Forall tok_ok (tokOBracket :: items l ++ tail) -> tokOBracket :: items l ++ tail = ts' ++ r' ->
    exists ts2 es, gelems false ts2 es /\ ts2 ++ r' = tail).
  { intros l tail IO HD ts' t r' G OK E.
    assert (HD2 : hd tCBracket (map ttyp (items l ++ tail)) <> tCBracket).
    { destruct l as [|x l]; [apply HD; reflexivity|]. destruct IO as [[_ IO]|IO]; [|discriminate]. destruct (items (x :: l)); [cbn in IO; congruence|exact IO]. }
    destruct G as [s|s| | |s|t s SF ST|o c O C|o ts m O GM|o c O C|o ts es O NH GE]; cbn [app] in E; try discriminate.
    - inversion E as [[E1 E2]]. subst t s. destruct ST as [Q|[Q|[Q|Q]]]; discriminate.
    - inversion E; subst. discriminate.
    - inversion E; subst. discriminate.
    - inversion E as [[E1 E2]]. rewrite E2 in HD2. cbn in HD2. congruence.
    - inversion E as [[E1 E2]]. subst o. inversion OK as [|? ? _ OK2]; subst.
      assert (FO : Forall (fun x => gval false (fst x) (snd x)) l) by (destruct IO as [[IO _]| ->]; auto).
      rewrite E2 in OK2. symmetry in E2. exact (items_peel l FO ts es r' tail GE OK2 E2). }
  assert (OBJ : forall l tail, members_ok l -> hd tCBrace (map ttyp tail) <> tCBrace ->
    forall ts' t r', gval false ts' t -> Forall tok_ok (tokOBrace :: members l ++ tail) -> tokOBrace :: members l ++ tail = ts' ++ r' ->
    exists seen ts2 ms, gmembers false seen ts2 ms /\ ts2 ++ r' = tail /\ forall k, In k (map (fun x => fst (fst x)) l) -> In k seen).
  { intros l tail MO HD ts' t r' G OK E.
    assert (HD2 : hd tCBrace (map ttyp (members l ++ tail)) <> tCBrace) by (destruct l as [|[[k ts] u] l]; [exact HD|discriminate]).
    destruct G as [s|s| | |s|t s SF ST|o c O C|o ts m O GM|o c O C|o ts es O NH GE]; cbn [app] in E; try discriminate.
    - inversion E as [[E1 E2]]. subst t s. destruct ST as [Q|[Q|[Q|Q]]]; discriminate.
    - inversion E as [[E1 E2]]. rewrite E2 in HD2. cbn in HD2. congruence.
    - inversion E as [[E1 E2]]. subst o. inversion OK as [|? ? _ OK2]; subst. rewrite E2 in OK2. symmetry in E2.
      destruct (members_peel l MO [] ts m r' tail GM OK2 E2) as [(seen & ts2 & ms & A & B & D)|(c & -> & C)]; [|cbn in HD; congruence].
      exists seen, ts2, ms. split; auto.
    - inversion E; subst. discriminate.
    - inversion E; subst. discriminate. }
  assert (GMH : forall seen ts ms, gmembers false seen ts ms -> forall r tail, ts ++ r = tail -> Forall tok_ok tail ->
    exists k colon tv t c tl, tail = mkTok tString k :: colon :: tv ++ c :: tl /\ ~ In k seen /\ ttyp colon = tColon /\ gval false tv t /\ (ttyp c = tCBrace \/ ttyp c = tComma)).
  { destruct 1 as [seen k' colon ts' t' c NI CL G' C|seen k' colon ts' t' cm c _ NI CL G' CM C|seen k' colon ts' t' cm ts2 m NI CL G' CM GM];
      intros r tail E F; cbn [app] in E; rewrite <- app_assoc in E; cbn [app] in E; subst tail.
    - exists k', colon, ts', t', c, r. auto 6.
    - exists k', colon, ts', t', cm, (c :: r). auto 6.
    - exists k', colon, ts', t', cm, (ts2 ++ r). auto 6. }
  intros BR. induction BR as [l ts t x IO G HD N1 N2|l ts IO B IH|l x MO N1 N2|l k MO I|l k x MO N|l k ts t x MO G N1 N2|l k ts MO B IH];
    intros ts' t' r r' G' OK E; cbn [app] in *; rewrite <- app_assoc in *.
  - destruct (ARR l ((ts ++ [x]) ++ r) IO) with (ts' := ts') (t := t') (r' := r') as (ts2 & es & GE & E2); auto.
    { intros Q. specialize (HD Q). destruct (gval_ne _ _ _ G) as (a & b & ->). exact HD. }
    inversion OK as [|? ? _ OK1]; subst. apply Forall_app in OK1 as [_ OK1]. rewrite <- app_assoc in *. cbn [app] in *.
    destruct GE as [ta ua c G2 C|ta ua cm tb es G2 C GE]; rewrite <- app_assoc in E2; cbn [app] in E2.
    + assert (ta = ts) as -> by (eapply prefix_free; eauto; rewrite E2; auto). apply app_inv_head in E2. inversion E2. subst. congruence.
    + assert (ta = ts) as -> by (eapply prefix_free; eauto; rewrite E2; auto). apply app_inv_head in E2. inversion E2. subst. congruence.
  - assert (BN : hd tCBracket (map ttyp ts) <> tCBracket) by (destruct B; discriminate).
    destruct (ARR l (ts ++ r) IO) with (ts' := ts') (t := t') (r' := r') as (ts2 & es & GE & E2); auto.
    { intros Q. destruct ts; [cbn in BN; congruence|exact BN]. }
    inversion OK as [|? ? _ OK1]; subst. apply Forall_app in OK1 as [_ OK1].
    destruct GE as [ta ua c G2 C|ta ua cm tb es G2 C GE]; rewrite <- app_assoc in E2; cbn [app] in E2; eapply IH; eauto.
  - destruct (OBJ l ([x] ++ r) MO) with (ts' := ts') (t := t') (r' := r') as (seen & ts2 & ms & GM & E2 & _); auto.
    inversion OK as [|? ? _ OK1]; subst. apply Forall_app in OK1 as [_ OK1].
    destruct (GMH _ _ _ GM _ _ E2 OK1) as (k & colon & tv & tt & c & tl & E3 & _). inversion E3; subst. cbn in N1. congruence.
  - destruct (OBJ l ([mkTok tString k] ++ r) MO) with (ts' := ts') (t := t') (r' := r') as (seen & ts2 & ms & GM & E2 & S); auto; [discriminate|].
    inversion OK as [|? ? _ OK1]; subst. apply Forall_app in OK1 as [_ OK1].
    destruct (GMH _ _ _ GM _ _ E2 OK1) as (k' & colon & tv & tt & c & tl & E3 & NI & _). inversion E3; subst. apply NI, S, I.
  - destruct (OBJ l ([mkTok tString k; x] ++ r) MO) with (ts' := ts') (t := t') (r' := r') as (seen & ts2 & ms & GM & E2 & S); auto; [discriminate|].
    inversion OK as [|? ? _ OK1]; subst. apply Forall_app in OK1 as [_ OK1].
    destruct (GMH _ _ _ GM _ _ E2 OK1) as (k' & colon & tv & tt & c & tl & E3 & NI & CL & _). inversion E3; subst. congruence.
  - destruct (OBJ l ((mkTok tString k :: tokColon :: ts ++ [x]) ++ r) MO) with (ts' := ts') (t := t') (r' := r') as (seen & ts2 & ms & GM & E2 & S); auto; [discriminate|].
    inversion OK as [|? ? _ OK1]; subst. apply Forall_app in OK1 as [_ OK1]. cbn [app] in *. rewrite <- app_assoc in *. cbn [app] in *.
    destruct (GMH _ _ _ GM _ _ E2 OK1) as (k' & colon & tv & tt & c & tl & E3 & NI & CL & G2 & C). inversion E3 as [[E4 E5 E6]].
    inversion OK1 as [|? ? _ OK3]; subst. inversion OK3 as [|? ? _ OK4]; subst.
    assert (tv = ts) as -> by (symmetry; eapply prefix_free; eauto). apply app_inv_head in E6. inversion E6. subst. destruct C; congruence.
  - destruct (OBJ l ((mkTok tString k :: tokColon :: ts) ++ r) MO) with (ts' := ts') (t := t') (r' := r') as (seen & ts2 & ms & GM & E2 & S); auto; [discriminate|].
    inversion OK as [|? ? _ OK1]; subst. apply Forall_app in OK1 as [_ OK1]. cbn [app] in *.
    destruct (GMH _ _ _ GM _ _ E2 OK1) as (k' & colon & tv & tt & c & tl & E3 & NI & CL & G2 & C). inversion E3 as [[E4 E5 E6]].
    inversion OK1 as [|? ? _ OK3]; subst. inversion OK3 as [|? ? _ OK4]; subst. eapply IH; eauto.
Qed.
