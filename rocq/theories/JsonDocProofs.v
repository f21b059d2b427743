(** Parse and Iterate on a whole document. *)
From Verif Require Import Base GoMap Iter IterGen IterSpec IterProofs Readers Stream Rest Union Json JsonLex JsonParse JsonSpec JsonTokProofs JsonParseProofs.
Open Scope go_scope.
Open Scope nat_scope.

Section D.
  Context {I : Type} (nx : stepfn I token) (un : I -> token -> I) (e : err).
  Hypothesis UN : forall s v, returns nx (un s v) (v, None) s.
  Notation Y := (fun i ts => yields nx i ts e).
  Notation pv d := (parse_value nx un d).
  Ltac stp R := eapply ok2_bind; [exact R|]; cbv beta iota.

  Definition opening (o : token) : Prop := ttyp o = tOBrace \/ ttyp o = tOBracket.
  Lemma container_open b ts t : gval b ts t -> container t -> exists o r, ts = o :: r /\ opening o.
  Proof. unfold opening. destruct 1; cbn; try tauto; intros; eexists _, _; eauto. Qed.
  Lemma open_container ts o r t : gval false ts t -> ts = o :: r -> opening o -> container t.
  Proof. unfold opening. destruct 1; intros E O; inversion E; subst; cbn in *; auto; try (destruct O; discriminate). unfold stray in *. intuition congruence. Qed.

  (** one result for all bounds, from the two of parse_value *)
  Definition doc2 (i : I) (d f : nat) : outcome (ret value * I) :=
    let! (r, i1) := nx f i in
    match r with
    | (_, Some e) => Done ((zv, Some (eoi_or errEmptyDocument e)), i1)
    | (firstTok, None) =>
        match ttyp firstTok with
        | tOBrace | tOBracket =>
            let! (r, i2) := pv d f (un i1 firstTok) in
            match r with
            | (_, Some e) => Done ((zv, Some e), i2)
            | (doc, None) => Done ((doc, None), i2)
            end
        | _ => Done ((zv, Some errObjectOrArrayRequired), i1)
        end
    end.
  Lemma doc2_doc i r i' : ok2 (doc2 i) r i' -> returns (parse_doc nx un) i r i'.
  Proof. intros [n H]. exists n. intros m L. rewrite <- (H m m L L). reflexivity. Qed.
  Lemma doc2_open i o ts : Y i (o :: ts) -> opening o -> exists i1, Y i1 (o :: ts) /\
    (forall r i', ok2 (fun d m => pv d m i1) r i' -> (forall e', snd r = Some e' -> r = (zv, Some e')) -> returns (parse_doc nx un) i r i').
  Proof.
    intros H O. destruct (Y_cons_un nx un e UN _ _ _ H) as (i1 & R1 & Y1 & U1). exists (un i1 o). split; auto.
    intros r i' R Z. apply doc2_doc. unfold doc2. stp R1.
    apply (ok2_eq _ (fun d f => let! (r, i2) := pv d f (un i1 o) in match r with
            | (_, Some e) => Done ((zv, Some e), i2)
            | (doc, None) => Done ((doc, None), i2)
            end)). { intros. destruct O as [-> | ->]; reflexivity. }
    stp R. destruct r as [v [e'|]]; [rewrite (Z e' eq_refl)|]; apply ok2_ret.
  Qed.

  Lemma doc_accepts b pre t i rest : gval b pre t -> container t -> Forall tok_ok pre -> Y i (pre ++ rest) ->
    exists i', returns (parse_doc nx un) i (value_of t, None) i'.
  Proof.
    intros G C F H. destruct (container_open _ _ _ G C) as (o & r & E & O). pose proof H as H'. rewrite E in H'. cbn [app] in H'.
    destruct (doc2_open _ _ _ H' O) as (i1 & Y1 & K).
    destruct (accepts nx un e UN b) as [A _]. destruct (A pre t G F i1 rest) as (i2 & R & _); [rewrite E; exact Y1|].
    exists i2. apply K; auto. discriminate.
  Qed.

  Lemma doc_total i ts : Forall tok_ok ts -> Y i ts ->
    exists r i', returns (parse_doc nx un) i r i' /\
      ((exists e', r = (zv, Some e')) \/ exists pre t ts', ts = pre ++ ts' /\ gval false pre t /\ container t /\ r = (value_of t, None)).
  Proof.
    intros F H. destruct ts as [|o ts].
    { destruct (Y_nil nx e _ H) as (i1 & R1 & _). eexists _, i1. split; [apply doc2_doc; unfold doc2; stp R1; apply ok2_ret|eauto]. }
    assert (D : opening o \/ (ttyp o <> tOBrace /\ ttyp o <> tOBracket)) by (unfold opening; destruct (ttyp o); auto; right; split; discriminate).
    destruct D as [O|[N1 N2]].
    - destruct (doc2_open _ _ _ H O) as (i1 & Y1 & K).
      destruct (value_total nx un e UN (length (o :: ts)) (o :: ts) i1 ltac:(cbn; lia) F Y1) as (r & i2 & R & G). exists r, i2.
      destruct G as [(e' & NE & ->)|(pre & t & ts' & E & G & -> & Y2)].
      + split; [apply K; auto; cbn; congruence|eauto].
      + split; [apply K; auto; discriminate|]. right. exists pre, t, ts'. split; auto. split; auto. split; auto.
        destruct (gval_ne _ _ _ G) as (u & us & ->). eapply open_container; eauto. inversion E; subst; auto.
    - destruct (Y_cons nx e _ _ _ H) as (i1 & R1 & _). eexists _, i1. split; [apply doc2_doc; unfold doc2; stp R1|left; eauto].
      destruct (ttyp o); try congruence; apply ok2_ret.
  Qed.

  (** ** Iterate *)
  Lemma doc_err_yields e' : yields (doc_next nx un) (doc_err e') [] e'.
  Proof.
    exists (doc_err e'). split; [constructor|]. unfold doc_err. eapply stuck_intro.
    - exists 0. intros m _. cbn. reflexivity.
    - apply stuck_fixed. exists 0. intros m _. reflexivity.
  Qed.
  Lemma doc_one_yields v : yields (doc_next nx un) (DocOne v (ofIter false)) [v] EOI.
  Proof.
    eapply yields_cons. { exists 0. intros m _. cbn. reflexivity. }
    eexists. split; [constructor|]. eapply stuck_intro; [exists 0; intros m _; cbn; reflexivity|].
    apply stuck_fixed. exists 0. intros m _. reflexivity.
  Qed.
  Lemma doc_arr_yields st vs e' : yields (next (array_gen nx un (parseValue nx un))) st vs e' -> yields (doc_next nx un) (DocArr st) vs e'.
  Proof.
    assert (ST : forall st r st', returns (next (array_gen nx un (parseValue nx un))) st r st' -> returns (doc_next nx un) (DocArr st) r (DocArr st')).
    { intros s0 r s1 [n R]. exists n. intros m L. specialize (R m L). cbn [doc_next].
      change (next (array_gen nx un (parse_value nx un m)) m s0) with (next (array_gen nx un (parseValue nx un)) m s0). rewrite R. reflexivity. }
    intros (s' & E & K). exists (DocArr s'). split.
    - induction E as [s|s v s1 l s2 R E IH]; [constructor|]. econstructor; [apply ST; exact R|apply IH; auto].
    - clear E. revert s' K. cofix CH. intros s' K. apply stuck_inv in K as (s2 & R & K). econstructor; [apply ST; exact R|apply CH; exact K].
  Qed.

  Lemma iterate_parse i ts : Forall tok_ok ts -> Y i ts ->
    exists it vs e' i', settles (fun m => iterate nx un m i) it /\ yields (doc_next nx un) it vs e' /\
      ((e' <> EOI /\ returns (parse_doc nx un) i (zv, Some e') i') \/
       (e' = EOI /\ exists v, returns (parse_doc nx un) i (v, None) i' /\
          ((typ_of v = TObject /\ vs = [v]) \/ v = mkV TArray (of4u vs)))).
  Proof.
    intros F H. destruct ts as [|o ts].
    { destruct (Y_nil nx e _ H) as (i1 & [n R1] & _). exists (doc_err (eoi_or errEmptyDocument e)), [], (eoi_or errEmptyDocument e), i1.
      split; [exists n; intros m L; unfold iterate; rewrite (R1 m m) by lia; reflexivity|]. split; [apply doc_err_yields|]. left.
      split; [apply eoi_or_ne; discriminate|]. apply doc2_doc. unfold doc2. stp (ex_intro (fun n => forall d m, n <= d -> n <= m -> nx m i = Done (zv, Some e, i1)) n R1). apply ok2_ret. }
    destruct (Y_cons_un nx un e UN _ _ _ H) as (i1 & R1 & Y1 & U1). inversion F as [|? ? F1 F2]; subst.
    assert (R1' := R1). destruct R1' as [n1 N1].
    assert (OBJ : ttyp o = tOBrace -> forall r i', ok2 (fun d f => parse_object nx un (pv d) f (un i1 o)) r i' -> returns (parse_doc nx un) i
        (match r with (_, Some e') => (zv, Some e') | (v, None) => (v, None) end) i').
    { intros TT r i' O. apply doc2_doc. unfold doc2. stp R1. rewrite TT.
      assert (PO : ok2 (fun d f => pv d f (un i1 o)) r i').
      { apply ok2_S1. cbn [parse_value]. stp (Y_un_next nx un UN i1 o). cbn [fst]. rewrite TT. exact O. }
      stp PO. destruct r as [v [e'|]]; apply ok2_ret. }
    destruct (ttyp o) eqn:TT.
    1:{ destruct (arr_first nx un e UN (length ts) (value_total nx un e UN _) o ts ltac:(lia) F2 TT _ U1) as (vs & e' & st' & A & G).
      exists (DocArr (parse_array (un i1 o))), vs, e', (snd st').
      split; [exists n1; intros m L; unfold iterate; rewrite (N1 m m) by lia; cbn [obind]; rewrite TT; reflexivity|].
      destruct (arun_emits nx un _ _ _ _ A) as (s1 & EM & FA).
      split; [apply doc_arr_yields; eapply ofIter_yields; eauto|].
      assert (C : ok2 (fun d m => collect_array nx un (pv d) m (un i1 o)) (slice_end vs e') (snd st')) by (eapply arun_collect; eauto).
      assert (PV : forall r, (slice_end vs e' = match r with (_, Some e) => ([], Some e) | (_, None) => (vs, None) end) ->
          r = match slice_end vs e' with (_, Some e) => (zv, Some e) | (slc, None) => sliceToValue slc end ->
          returns (parse_doc nx un) i r (snd st')).
      { intros r _ ->. apply doc2_doc. unfold doc2. stp R1. rewrite TT.
        assert (PO : ok2 (fun d f => pv d f (un i1 o)) (match slice_end vs e' with (_, Some e) => (zv, Some e) | (slc, None) => sliceToValue slc end) (snd st')).
        { apply ok2_S1. cbn [parse_value]. stp (Y_un_next nx un UN i1 o). cbn [fst]. rewrite TT. stp C. destruct (slice_end vs e') as [slc [e2|]]; apply ok2_ret. }
        stp PO. destruct (slice_end vs e') as [slc [e2|]]; apply ok2_ret. }
      assert (D : e' = EOI \/ e' <> EOI) by (destruct e'; auto; right; discriminate). destruct D as [->|D].
      - right. split; auto. exists (mkV TArray (of4u vs)). split; [|auto]. apply PV; reflexivity.
      - left. split; auto. apply PV; destruct e'; cbn; congruence. }
    2:{ destruct (obj_total nx un e UN (length ts) (value_total nx un e UN _) ts ltac:(lia) F2 [] [] i1 ltac:(cbn; tauto) Y1) as (r & i2 & R2 & G).
      assert (PO : ok2 (fun d f => parse_object nx un (pv d) f (un i1 o)) r i2).
      { unfold parse_object. stp (Y_un_next nx un UN i1 o). exact R2. }
      pose proof PO as [n2 N2]. destruct r as [v [e'|]].
      - exists (doc_err e'), [], e', i2.
        split; [exists (n1 + n2); intros m L; unfold iterate; rewrite (N1 m m) by lia; cbn [obind]; rewrite TT, N2 by lia; reflexivity|].
        split; [apply doc_err_yields|]. left. destruct G as [(e2 & NE & E2)|(pre & m & ts' & E1 & G & EE & Y3)]; [|discriminate]. inversion E2; subst.
        split; auto. apply (OBJ eq_refl _ _ PO).
      - exists (DocOne v (ofIter false)), [v], EOI, i2.
        split; [exists (n1 + n2); intros m L; unfold iterate; rewrite (N1 m m) by lia; cbn [obind]; rewrite TT, N2 by lia; reflexivity|].
        split; [apply doc_one_yields|]. right. split; auto. exists v. split; [apply (OBJ eq_refl _ _ PO)|]. left. split; auto.
        destruct G as [(e2 & NE & E2)|(pre & m & ts' & E1 & G & EE & Y3)]; [discriminate|]. inversion EE; subst. reflexivity. }
    all: exists (doc_err errObjectOrArrayRequired), [], errObjectOrArrayRequired, i1;
      (split; [exists n1; intros m L; unfold iterate; rewrite (N1 m m) by lia; cbn [obind]; rewrite TT; reflexivity|]);
      (split; [apply doc_err_yields|]); left; (split; [discriminate|]); apply doc2_doc; unfold doc2; stp R1; rewrite TT; apply ok2_ret.
  Qed.
End D.
