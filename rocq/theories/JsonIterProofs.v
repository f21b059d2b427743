(** Iterate over an array: the elements before a fault are delivered, and nothing else. *)
From Verif Require Import Base GoMap Iter IterGen IterSpec IterProofs Readers ReaderSpec Stream Rest Union Json JsonLex JsonParse JsonSpec JsonTokProofs JsonParseProofs
  JsonDocProofs JsonApiProofs.
Open Scope go_scope.
Open Scope nat_scope.

Section D.
  Context {I : Type} (nx : stepfn I token) (un : I -> token -> I) (e : err).
  Hypothesis UN : forall s v, returns nx (un s v) (v, None) s.
  Notation Y := (fun i ts => yields nx i ts e).
  Notation pv d := (parse_value nx un d).
  Notation run := (arun nx un).
  Ltac stp R := eapply ok2_bind; [exact R|]; cbv beta iota.
  Notation value_total := (value_total nx un e UN).
  Notation Y_cons_un := (Y_cons_un nx un e UN).

  Lemma gsome_ne b ts l : gsome b ts l -> exists t r, ts = t :: r.
  Proof. destruct 1 as [ts t G|ts t cm ts' l G]; destruct (gval_ne _ _ _ G) as (u & us & ->); cbn; eauto. Qed.

  (** one step of the array, after the first element *)
  Lemma later_step i cm t1 ts r i3 : Y i (cm :: t1 :: ts) -> ttyp cm = tComma ->
    exists i2, Y i2 (t1 :: ts) /\ (ok2 (fun d m => pv d m i2) r i3 ->
      ok2 (fun d m => array_gen nx un (pv d) m (false, i)) (match r with (_, Some e) => (zv, Some e) | (v, None) => (v, None) end) (false, i3)).
  Proof.
    intros H TT. destruct (Y_cons_un _ _ _ H) as (i1 & R1 & Y1 & _). destruct (Y_cons_un _ _ _ Y1) as (i2 & R2 & Y2 & U2).
    exists (un i2 t1). split; auto. intros R3. unfold array_gen. stp R1. rewrite TT. stp R2. stp R3. destruct r as [v [e'|]]; apply ok2_ret.
  Qed.
  Lemma first_step i o t1 ts r i3 : Y i (o :: t1 :: ts) -> ttyp t1 <> tCBracket ->
    exists i2, Y i2 (t1 :: ts) /\ (ok2 (fun d m => pv d m i2) r i3 ->
      ok2 (fun d m => array_gen nx un (pv d) m (true, i)) (match r with (_, Some e) => (zv, Some e) | (v, None) => (v, None) end)
        (match snd r with Some _ => true | None => false end, i3)).
  Proof.
    intros H TT. destruct (Y_cons_un _ _ _ H) as (i1 & R1 & Y1 & _). destruct (Y_cons_un _ _ _ Y1) as (i2 & R2 & Y2 & U2).
    exists (un i2 t1). split; auto. intros R3. unfold array_gen. stp R1. stp R2.
    eapply ok2_eq with (g := fun d m => let! (r, i3) := pv d m (un i2 t1) in
              match r with
              | (_, Some e) => Done ((zv, Some e), (true, i3))
              | (value, None) => Done ((value, None), (false, i3))
              end). { intros. destruct (ttyp t1); try reflexivity. congruence. }
    stp R3. destruct r as [v [e'|]]; apply ok2_ret.
  Qed.

  (** ** every complete element is delivered *)
  Lemma later_complete ts l : gsome false ts l -> forall i cm rest, Y i (cm :: ts ++ rest) -> ttyp cm = tComma -> Forall tok_ok (ts ++ rest) ->
    exists vs e' st', run (false, i) (map value_of l ++ vs) e' st'.
  Proof.
    induction 1 as [ts t G|ts t comma ts' l G C GS IH]; intros i cm rest H TT F.
    - destruct (gval_ne _ _ _ G) as (u & us & E). pose proof F as F'. apply Forall_app in F' as [F1 F2].
      destruct (accepts nx un e UN false) as [A _]. subst ts. cbn [app] in H.
      destruct (Y_cons_un _ _ _ H) as (i1 & R1 & Y1 & _). destruct (Y_cons_un _ _ _ Y1) as (i2 & R2 & Y2 & U2).
      destruct (A _ t G F1 (un i2 u) rest U2) as (i3 & R3 & Y3).
      destruct (arr_total nx un e UN (length rest) (value_total _) rest (le_n _) F2 i3 Y3) as (vs & e' & st' & RN & _).
      exists vs, e', st'. cbn [map app]. eapply ar_step; [|exact RN]. unfold array_gen. stp R1. rewrite TT. stp R2. stp R3. apply ok2_ret.
    - destruct (gval_ne _ _ _ G) as (u & us & E). rewrite <- app_assoc in *. pose proof F as F'. apply Forall_app in F' as [F1 F2].
      inversion F2 as [|? ? F3 F4]; subst.
      destruct (accepts nx un e UN false) as [A _]. cbn [app] in H.
      destruct (Y_cons_un _ _ _ H) as (i1 & R1 & Y1 & _). destruct (Y_cons_un _ _ _ Y1) as (i2 & R2 & Y2 & U2).
      destruct (A _ t G F1 (un i2 u) (comma :: ts' ++ rest) U2) as (i3 & R3 & Y3).
      destruct (IH i3 comma rest Y3 C F4) as (vs & e' & st' & RN).
      exists vs, e', st'. cbn [map app]. eapply ar_step; [|exact RN]. unfold array_gen. stp R1. rewrite TT. stp R2. stp R3. apply ok2_ret.
  Qed.
  Lemma whole_complete o ts l rest i : gsome false ts l -> hd tCBracket (map ttyp ts) <> tCBracket -> Y i (o :: ts ++ rest) -> Forall tok_ok (ts ++ rest) ->
    exists vs e' st', run (true, i) (map value_of l ++ vs) e' st'.
  Proof.
    intros GS HD H F. destruct (accepts nx un e UN false) as [A _].
    destruct GS as [ts t G|ts t comma ts' l G C GS]; destruct (gval_ne _ _ _ G) as (u & us & E).
    - pose proof F as F'. apply Forall_app in F' as [F1 F2]. subst ts. cbn [app map hd] in H, HD.
      destruct (Y_cons_un _ _ _ H) as (i1 & R1 & Y1 & _). destruct (Y_cons_un _ _ _ Y1) as (i2 & R2 & Y2 & U2).
      destruct (A _ t G F1 (un i2 u) rest U2) as (i3 & R3 & Y3).
      destruct (arr_total nx un e UN (length rest) (value_total _) rest (le_n _) F2 i3 Y3) as (vs & e' & st' & RN & _).
      exists vs, e', st'. cbn [map app]. eapply ar_step; [|exact RN]. unfold array_gen. stp R1. stp R2.
      eapply ok2_eq with (g := fun d m => let! (r, i3) := pv d m (un i2 u) in
              match r with
              | (_, Some e) => Done ((zv, Some e), (true, i3))
              | (value, None) => Done ((value, None), (false, i3))
              end). { intros. destruct (ttyp u); try reflexivity. congruence. }
      stp R3. apply ok2_ret.
    - rewrite <- app_assoc in *. pose proof F as F'. apply Forall_app in F' as [F1 F2].
      inversion F2 as [|? ? F3 F4]; subst. cbn [app map hd] in H, HD.
      destruct (Y_cons_un _ _ _ H) as (i1 & R1 & Y1 & _). destruct (Y_cons_un _ _ _ Y1) as (i2 & R2 & Y2 & U2).
      destruct (A _ t G F1 (un i2 u) (comma :: ts' ++ rest) U2) as (i3 & R3 & Y3).
      destruct (later_complete _ _ GS i3 comma rest Y3 C F4) as (vs & e' & st' & RN).
      exists vs, e', st'. cbn [map app]. eapply ar_step; [|exact RN]. unfold array_gen. stp R1. stp R2.
      eapply ok2_eq with (g := fun d m => let! (r, i3) := pv d m (un i2 u) in
              match r with
              | (_, Some e) => Done ((zv, Some e), (true, i3))
              | (value, None) => Done ((value, None), (false, i3))
              end). { intros. destruct (ttyp u); try reflexivity. congruence. }
      stp R3. apply ok2_ret.
  Qed.

  (** ** nothing else is *)
  Lemma later_sound st vs e' st' : run st vs e' st' -> forall i ts, st = (false, i) -> Y i ts -> Forall tok_ok ts ->
    vs = [] \/ exists cm pre l ts', ts = cm :: pre ++ ts' /\ ttyp cm = tComma /\ gsome false pre l /\ vs = map value_of l.
  Proof.
    induction 1 as [st e' st' H|st v st1 vs e' st' H R IH]; intros i ts -> YI F; auto. right.
    destruct ts as [|cm ts].
    { exfalso. destruct (Y_nil nx e _ YI) as (i1 & R1 & Y1).
      assert (K : ok2 (fun d m => array_gen nx un (pv d) m (false, i)) (zv, Some (eoi_or errArrayRequiresCommaOrBracket e)) (false, i1)) by (unfold array_gen; stp R1; apply ok2_ret).
      destruct (ok2_det _ _ _ _ _ H K) as [K' _]. discriminate. }
    destruct (Y_cons_un _ _ _ YI) as (i1 & R1 & Y1 & _). inversion F as [|? ? F1 F2]; subst.
    destruct (ttyp cm) eqn:TT;
      try (exfalso; match goal with |- False => idtac end;
        assert (K : exists er, ok2 (fun d m => array_gen nx un (pv d) m (false, i)) (zv, Some er) (false, i1)) by (eexists; unfold array_gen; stp R1; rewrite TT; apply ok2_ret);
        destruct K as [er K]; destruct (ok2_det _ _ _ _ _ H K) as [K' _]; discriminate).
    destruct ts as [|t1 ts].
    { exfalso. destruct (Y_nil nx e _ Y1) as (i2 & R2 & Y2).
      assert (K : ok2 (fun d m => array_gen nx un (pv d) m (false, i)) (zv, Some (eoi_or errArrayRequiresValue e)) (false, i2))
        by (unfold array_gen; stp R1; rewrite TT; stp R2; apply ok2_ret).
      destruct (ok2_det _ _ _ _ _ H K) as [K' _]. discriminate. }
    destruct (Y_cons_un _ _ _ Y1) as (i2 & R2 & Y2 & U2).
    destruct (value_total (length (t1 :: ts)) (t1 :: ts) _ ltac:(cbn; lia) F2 U2) as (r & i3 & R3 & G).
    assert (K : ok2 (fun d m => array_gen nx un (pv d) m (false, i)) (match r with (_, Some e) => (zv, Some e) | (v, None) => (v, None) end) (false, i3)).
    { unfold array_gen. stp R1. rewrite TT. stp R2. stp R3. destruct r as [v0 [e0|]]; apply ok2_ret. }
    destruct (ok2_det _ _ _ _ _ H K) as [K1 K2].
    destruct G as [(e0 & NE & ->)|(pre & t & ts' & ET & G & -> & Y3)]; [discriminate|]. inversion K1; subst v.
    rewrite ET in F2. apply Forall_app in F2 as [_ F5].
    destruct (IH i3 ts' K2 Y3 F5) as [->|(cm2 & pre2 & l & ts2 & -> & C2 & GS & ->)].
    - exists cm, pre, [t], ts'. split; [congruence|]. split; auto. split; [apply gs_one; auto|auto].
    - exists cm, (pre ++ cm2 :: pre2), (t :: l), ts2. split; [rewrite ET, <- app_assoc; reflexivity|]. split; auto. split; [apply gs_more; auto|auto].
  Qed.
  Lemma whole_sound i o ts vs e' st' : run (true, i) vs e' st' -> Y i (o :: ts) -> Forall tok_ok ts ->
    vs = [] \/ exists pre l ts', ts = pre ++ ts' /\ hd tCBracket (map ttyp pre) <> tCBracket /\ gsome false pre l /\ vs = map value_of l.
  Proof.
    intros R YI F. inversion R as [? ? ? H|? v st1 vs1 ? ? H R']; subst; auto. right.
    destruct (Y_cons_un _ _ _ YI) as (i1 & R1 & Y1 & _). destruct ts as [|t1 ts].
    { exfalso. destruct (Y_nil nx e _ Y1) as (i2 & R2 & Y2).
      assert (K : ok2 (fun d m => array_gen nx un (pv d) m (true, i)) (zv, Some (eoi_or errArrayRequiresValueOrBracket e)) (true, i2)) by (unfold array_gen; stp R1; stp R2; apply ok2_ret).
      destruct (ok2_det _ _ _ _ _ H K) as [K' _]. discriminate. }
    destruct (Y_cons_un _ _ _ Y1) as (i2 & R2 & Y2 & U2).
    assert (D : ttyp t1 = tCBracket \/ ttyp t1 <> tCBracket) by (destruct (ttyp t1); auto; right; discriminate). destruct D as [D|D].
    { exfalso. assert (K : ok2 (fun d m => array_gen nx un (pv d) m (true, i)) (zv, Some EOI) (true, i2)) by (unfold array_gen; stp R1; stp R2; rewrite D; apply ok2_ret).
      destruct (ok2_det _ _ _ _ _ H K) as [K' _]. discriminate. }
    destruct (value_total (length (t1 :: ts)) (t1 :: ts) _ ltac:(cbn; lia) F U2) as (r & i3 & R3 & G).
    destruct (first_step i o t1 ts r i3 YI D) as (i2' & Y2' & _).
    assert (K : ok2 (fun d m => array_gen nx un (pv d) m (true, i)) (match r with (_, Some e) => (zv, Some e) | (v, None) => (v, None) end)
        (match snd r with Some _ => true | None => false end, i3)).
    { unfold array_gen. stp R1. stp R2.
      eapply ok2_eq with (g := fun d m => let! (r, i3) := pv d m (un i2 t1) in
              match r with
              | (_, Some e) => Done ((zv, Some e), (true, i3))
              | (value, None) => Done ((value, None), (false, i3))
              end). { intros. destruct (ttyp t1); try reflexivity. congruence. }
      stp R3. destruct r as [v0 [e0|]]; apply ok2_ret. }
    destruct (ok2_det _ _ _ _ _ H K) as [K1 K2].
    destruct G as [(e0 & NE & ->)|(pre & t & ts' & ET & G & -> & Y3)]; [discriminate|]. inversion K1; subst v. cbn [snd] in K2.
    assert (HD : hd tCBracket (map ttyp pre) <> tCBracket).
    { destruct (gval_ne _ _ _ G) as (u & us & ->). inversion ET; subst. cbn. auto. }
    rewrite ET in F. apply Forall_app in F as [_ F5].
    destruct (later_sound _ _ _ _ R' i3 ts' K2 Y3 F5) as [->|(cm2 & pre2 & l & ts2 & -> & C2 & GS & ->)].
    - exists pre, [t], ts'. split; auto. split; auto. split; [apply gs_one; auto|auto].
    - exists (pre ++ cm2 :: pre2), (t :: l), ts2. split; [rewrite ET, <- app_assoc; reflexivity|]. split.
      + destruct (gval_ne _ _ _ G) as (u & us & ->). cbn in *. auto.
      + split; [apply gs_more; auto|auto].
  Qed.

  Lemma iterate_arr i o ts : Y i (o :: ts) -> ttyp o = tOBracket ->
    exists i1, Y i1 (o :: ts) /\ settles (fun m => iterate nx un m i) (DocArr (parse_array i1)) /\
      (forall vs e' st', run (true, i1) vs e' st' -> yields (doc_next nx un) (DocArr (parse_array i1)) vs e').
  Proof.
    intros H TT. destruct (Y_cons_un _ _ _ H) as (i1 & [n1 N1] & Y1 & U1). exists (un i1 o). split; auto.
    split; [exists n1; intros m L; unfold iterate; rewrite (N1 m m) by lia; cbn [obind]; rewrite TT; reflexivity|].
    intros vs e' st' A. destruct (arun_emits nx un _ _ _ _ A) as (s1 & EM & FA). apply doc_arr_yields. eapply ofIter_yields; eauto.
  Qed.
  Lemma iterate_other i ts vs e' it : Y i ts -> (forall o r, ts = o :: r -> ttyp o <> tOBracket) -> Forall tok_ok ts ->
    settles (fun m => iterate nx un m i) it -> yields (doc_next nx un) it vs e' -> e' <> EOI -> vs = [].
  Proof.
    intros H N F IT YI NE.
    assert (ERR : forall e2, settles (fun m => iterate nx un m i) (doc_err e2) -> vs = []).
    { intros e2 S2. pose proof (settles_det _ _ _ IT S2) as ->. destruct (yields_det _ _ _ _ _ _ YI (doc_err_yields nx un e2)); auto. }
    destruct ts as [|o ts].
    { destruct (Y_nil nx e _ H) as (i1 & [n R1] & _). apply (ERR (eoi_or errEmptyDocument e)). exists n. intros m L. unfold iterate. rewrite (R1 m m) by lia. reflexivity. }
    destruct (Y_cons_un _ _ _ H) as (i1 & [n1 N1] & Y1 & U1). specialize (N o ts eq_refl). inversion F as [|? ? F1 F2]; subst.
    destruct (ttyp o) eqn:TT; try congruence.
    2:{ destruct (obj_total nx un e UN (length ts) (value_total _) ts ltac:(lia) F2 [] [] i1 ltac:(cbn; tauto) Y1) as (r & i2 & R2 & G).
      assert (PO : ok2 (fun d f => parse_object nx un (pv d) f (un i1 o)) r i2) by (unfold parse_object; stp (Y_un_next nx un UN i1 o); exact R2).
      destruct PO as [n2 N2]. destruct r as [v [e2|]].
      - apply (ERR e2). exists (n1 + n2). intros m L. unfold iterate. rewrite (N1 m m) by lia. cbn [obind]. rewrite TT, N2 by lia. reflexivity.
      - exfalso. assert (S2 : settles (fun m => iterate nx un m i) (DocOne v (ofIter false))).
        { exists (n1 + n2). intros m L. unfold iterate. rewrite (N1 m m) by lia. cbn [obind]. rewrite TT, N2 by lia. reflexivity. }
        pose proof (settles_det _ _ _ IT S2) as ->. destruct (yields_det _ _ _ _ _ _ YI (doc_one_yields nx un v)) as [_ E]. congruence. }
    all: apply (ERR errObjectOrArrayRequired); exists n1; intros m L; unfold iterate; rewrite (N1 m m) by lia; cbn [obind]; rewrite TT; reflexivity.
  Qed.
End D.

Section Doc.
  Context {S : Type} (rd : reader S).
  Lemma iterate_complete s text e toks l rest it vs e' : reads rd s text e -> tokenized e text toks rest -> array_so_far toks l ->
    settles (Iterate rd s) it -> yields (doc_next (tok_next rd) unread) it vs e' -> exists more, vs = map value_of l ++ more.
  Proof.
    intros R TZ (o & ts & -> & TT & HD & GS) IT YI.
    destruct (lexes_total e rest) as (ts2 & e2 & LX & _). pose proof (tokenized_lexes _ _ _ _ _ _ TZ LX) as LX2.
    pose proof (lexes_ok _ _ _ _ LX2) as F. cbn [app] in *. inversion F as [|? ? F1 F2]; subst.
    assert (Y : yields (tok_next rd) (tokens_of s) (o :: ts ++ ts2) e2) by (unfold tok_next, tokens_of; eapply lexes_yields; eauto).
    destruct (iterate_arr (tok_next rd) unread e2 (unread_returns _) _ _ _ Y TT) as (i1 & Y1 & S1 & K).
    destruct (whole_complete (tok_next rd) unread e2 (unread_returns _) o ts l ts2 i1 GS HD Y1 F2) as (more & e3 & st' & RN).
    pose proof (settles_det _ _ _ IT S1) as ->. destruct (yields_det _ _ _ _ _ _ YI (K _ _ _ RN)) as [-> _]. eauto.
  Qed.
  Lemma iterate_sound s text e it vs e' : reads rd s text e -> settles (Iterate rd s) it -> yields (doc_next (tok_next rd) unread) it vs e' -> e' <> EOI ->
    vs = [] \/ exists toks l rest, tokenized e text toks rest /\ array_so_far toks l /\ vs = map value_of l.
  Proof.
    intros R IT YI NE. destruct (tokens_yield rd s text e R) as (ts & e1 & LX & F & Y). destruct (lexes_tokenized _ _ _ _ LX) as (rest & TZ & _).
    assert (D : (exists o r, ts = o :: r /\ ttyp o = tOBracket) \/ (forall o r, ts = o :: r -> ttyp o <> tOBracket)).
    { destruct ts as [|o r]; [right; discriminate|]. destruct (ttyp o) eqn:TT; [left; eauto|right..]; intros ? ? E; inversion E; subst; congruence. }
    destruct D as [(o & r & -> & TT)|D].
    - inversion F as [|? ? F1 F2]; subst.
      destruct (iterate_arr (tok_next rd) unread e1 (unread_returns _) _ _ _ Y TT) as (i1 & Y1 & S1 & K).
      destruct (arr_first (tok_next rd) unread e1 (unread_returns _) (length r) (value_total (tok_next rd) unread e1 (unread_returns _) _) o r (le_n _) F2 TT _ Y1)
        as (vs2 & e2 & st2 & RN & _).
      pose proof (settles_det _ _ _ IT S1) as ->. destruct (yields_det _ _ _ _ _ _ YI (K _ _ _ RN)) as [-> _].
      destruct (whole_sound (tok_next rd) unread e1 (unread_returns _) _ _ _ _ _ _ RN Y1 F2) as [->|(pre & l & ts' & -> & HD & GS & ->)]; auto.
      right. destruct (tokenized_prefix e text (o :: pre) ts' rest TZ) as (mid & A & _). exists (o :: pre), l, mid. split; auto. split; auto.
      exists o, pre. auto.
    - left. eapply (iterate_other (tok_next rd) unread e1 (unread_returns _)); eauto.
  Qed.
End Doc.
