(** lex on the list iterator, and the token iterator over any rune iterator. *)
From Verif Require Import Base Iter IterSpec IterProofs ReaderSpec Writer JsonLex JsonSim JsonSpec JsonLexProofs JsonStrProofs.
From Coq Require Import ZifyBool.
Open Scope Z_scope.

Definition isws (c : Z) : bool := (c =? 32) || (c =? 10) || (c =? 13) || (c =? 9).
Definition islow (c : Z) : bool := (97 <=? c) && (c <=? 122).
(** what every token of the lexer satisfies *)
Definition tok_ok (t : token) : Prop :=
  match ttyp t with
  | tNumber => existsb digit (tval t) = true
  | tBoolean => t = tokTrue \/ t = tokFalse
  | _ => True
  end.

Section Tok.
  Variable e : err.
  Notation nx := (list_nx (T := Z) e).
  Notation un := (list_un (T := Z)).

  Lemma ws_eq l : forall f, (length l < f)%nat ->
    exists w r, l = w ++ r /\ Forall (fun c => isws c = true) w /\
      match r with
      | [] => ws_loop nx f l = Done ((0, Some e), [])
      | c :: r' => isws c = false /\ ws_loop nx f l = Done ((c, None), r')
      end.
  Proof.
    induction l as [|c l IH]; intros [|f] L; cbn in L; try lia; cbn [ws_loop list_nx obind].
    - exists [], []. auto.
    - fold (isws c). destruct (isws c) eqn:W.
      + destruct (IH f ltac:(lia)) as (w & r & -> & F & H). exists (c :: w), r. repeat split; auto.
      + exists [], (c :: l). auto.
  Qed.

  Fixpoint lspan (l : list Z) : list Z * list Z :=
    match l with
    | [] => ([], [])
    | c :: r => if islow c then let '(a, b) := lspan r in (c :: a, b) else ([], l)
    end.
  Lemma lspan_app w r : lspan (w ++ r) = (w ++ fst (lspan r), snd (lspan r)) \/ exists c, In c w /\ islow c = false.
  Proof.
    induction w as [|c w IH]; cbn; [left; destruct (lspan r); reflexivity|].
    destruct (islow c) eqn:C; [|right; exists c; auto]. destruct IH as [->|(c' & I & Hc)]; [left; reflexivity|right; exists c'; auto].
  Qed.
  Lemma lspan_spec l w r : lspan l = (w, r) -> l = w ++ r /\ match r with [] => True | c :: _ => ~ (97 <= c <= 122) end.
  Proof.
    revert w r. induction l as [|c l IH]; cbn; intros w r H; [inversion H; auto|].
    destruct (islow c) eqn:D.
    - destruct (lspan l) as [a b]. inversion H; subst. destruct (IH _ _ eq_refl) as (-> & N). auto.
    - inversion H; subst. split; auto. unfold islow in D. lia.
  Qed.
  Lemma lspan_len l : (length (snd (lspan l)) <= length l)%nat.
  Proof. induction l as [|c l IH]; cbn; auto. destruct (islow c); cbn; auto. destruct (lspan l); cbn in *. lia. Qed.
  Lemma word_eq l : forall f str, (length l < f)%nat ->
    let '(w, r) := lspan l in
    (match r with [] => e = EOI | _ => True end -> word_loop nx un f str l = Done (word_token (str ++ w), r)) /\
    (r = [] -> e <> EOI -> word_loop nx un f str l = Done ((zt, Some e), [])).
  Proof.
    induction l as [|c l IH]; intros [|f] str L; cbn in L; try lia; cbn [lspan word_loop list_nx obind].
    - rewrite app_nil_r. split; [intros ->; reflexivity|]. intros _ N. destruct e; try reflexivity. congruence.
    - fold (islow c). destruct (islow c) eqn:C.
      + specialize (IH f (str ++ [c]) ltac:(lia)). destruct (lspan l) as [w r]. rewrite <- app_assoc in IH. exact IH.
      + rewrite app_nil_r. split; [reflexivity|discriminate].
  Qed.

  Lemma word_token_ok s t : word_token s = (t, None) -> tok_ok t.
  Proof.
    unfold word_token. repeat destruct list_eq_dec; intros H; inversion H; subst; unfold tok_ok; cbn; auto.
  Qed.

  Lemma lex_number_nonempty i f x : lex_number i f x -> (0 < length (i ++ f ++ x))%nat /\ existsb digit (i ++ f ++ x) = true /\ Forall (fun c => 0 <= c < 128) (i ++ f ++ x).
  Proof.
    assert (DA : forall l, Forall digitc l -> Forall (fun c => 0 <= c < 128) l).
    { intros l F. eapply Forall_impl; [|exact F]. unfold digitc. intros; cbn in *; lia. }
    assert (FA : forall f, frac_part f -> Forall (fun c => 0 <= c < 128) f).
    { intros l F. inversion F as [|ds D]; subst; auto. constructor; [lia|]. apply DA, D. }
    assert (XA : forall f, exp_part f -> Forall (fun c => 0 <= c < 128) f).
    { intros l F. inversion F as [|c sg ds E SG D]; subst; auto. constructor; [lia|]. apply Forall_app. split; [|apply DA, D].
      destruct SG as [->|[->| ->]]; repeat constructor; lia. }
    intros H. inversion H as [i0 f0 x0 IP FP X | ds f0 x0 D FP X]; subst; rewrite ?existsb_app, ?app_length.
    - inversion IP as [|d ds D F]; subst; (split; [cbn; lia|]); (split; [unfold digit; cbn; lia|]);
        (apply Forall_app; split; [|apply Forall_app; split; auto]); [repeat constructor; lia|]. constructor; [lia|auto].
    - destruct D as [NE F]. destruct ds as [|d ds]; [congruence|]. inversion F; subst. unfold digitc in *. split; [cbn; lia|].
      split; [unfold digit; cbn; lia|]. apply Forall_app; split; [|apply Forall_app; split; auto]. constructor; [lia|]. apply DA; auto.
  Qed.

  Definition lex_at (f : nat) (c : Z) (r : list Z) : outcome (ret token * list Z) :=
    if c =? 91 then Done ((tokOBracket, None), r)
    else if c =? 93 then Done ((tokCBracket, None), r)
    else if c =? 123 then Done ((tokOBrace, None), r)
    else if c =? 125 then Done ((tokCBrace, None), r)
    else if c =? 44 then Done ((tokComma, None), r)
    else if c =? 58 then Done ((tokColon, None), r)
    else if c =? 34 then str_loop nx f [] r
    else if (c =? 45) || ((48 <=? c) && (c <=? 57)) then lexNumber nx un f (c :: r)
    else if (c =? 116) || (c =? 102) || (c =? 110) then word_loop nx un f [] (c :: r)
    else Done ((zt, Some errInvalidChar), r).
  Lemma ws_skip w c r f : Forall (fun c => isws c = true) w -> isws c = false -> (length w < f)%nat -> ws_loop nx f (w ++ c :: r) = Done ((c, None), r).
  Proof.
    intros F N. revert f. induction F as [|a w A F IH]; intros [|f] L; cbn in L; try lia; cbn [app ws_loop list_nx obind].
    - fold (isws c). rewrite N. reflexivity.
    - fold (isws a). rewrite A. apply IH. lia.
  Qed.
  Lemma lex_skip w c r f : Forall (fun c => isws c = true) w -> isws c = false -> (length w < f)%nat -> lex nx un f (w ++ c :: r) = lex_at f c r.
  Proof.
    intros F N L. unfold lex. assert (H := ws_skip w c r f F N L).
    destruct w as [|a w]; cbn [app list_nx obind]; unfold list_un at 1; cbn [app] in H; rewrite H; reflexivity.
  Qed.
  Lemma lex_allws w f : Forall (fun c => isws c = true) w -> (length w < f)%nat -> exists l', lex nx un f w = Done ((zt, Some e), l').
  Proof.
    intros F L. unfold lex. destruct w as [|a w]; cbn [list_nx obind]; [eauto|]. unfold list_un at 1.
    enough (ws_loop nx f (a :: w) = Done ((0, Some e), [])) as -> by (cbn; eauto).
    revert f L. induction F as [|b u B F IH]; intros [|f] L; cbn in L; try lia; [reflexivity|]. cbn [ws_loop list_nx obind].
    fold (isws b). rewrite B. apply IH. lia.
  Qed.

  (** lex ends, and on success consumes something and returns a proper token *)
  Lemma lex_total l f : (S (length l) < f)%nat ->
    exists r l', lex nx un f l = Done (r, l') /\ (snd r = None -> (length l' < length l)%nat /\ tok_ok (fst r) /\
      exists w u, l = w ++ u ++ l' /\ Forall (fun c => isws c = true) w /\ found e u (fst r) l').
  Proof.
    intros L. destruct (ws_eq l f ltac:(lia)) as (w & r & El & F & H).
    destruct r as [|c r]. { subst l. rewrite app_nil_r in *. destruct (lex_allws w f F ltac:(lia)) as (l' & ->). eexists _, _. split; [reflexivity|]. discriminate. }
    destruct H as [NW _]. assert (Lw : (length w < f)%nat) by (rewrite El, app_length in L; cbn in L; lia); rewrite El in L.
    subst l. rewrite (lex_skip w c r f F NW Lw). unfold lex_at. clear Lw. rewrite app_length in L. cbn [length] in L.
    assert (Lr : (length r < length (w ++ c :: r))%nat) by (rewrite app_length; cbn; lia).
    repeat match goal with
      |- exists r l', (if (c =? ?k) then Done ((?t, None), ?i) else _) = _ /\ _ => destruct (Z.eqb_spec c k) as [EC|_]; [eexists _, _; split; [reflexivity|]; intros _; split; [exact Lr|split; [exact Logic.I|
          exists w, [c]; split; [reflexivity|split; [exact F|apply fd_punct; subst c; cbn; tauto]]]]|]
    end.
    destruct (c =? 34) eqn:E34.
    - destruct (str_loop_total e f [] r ltac:(lia)) as [(parts & s & t & r' & FS & T & ->)|(e' & r' & ->)].
      2:{ eexists _, _. split; [reflexivity|]. discriminate. }
      rewrite (str_loop_ok e parts s t r' FS T).
      2:{ assert (length parts <= length (concat parts))%nat.
          { clear -FS. induction FS as [|u c parts s U F IH]; cbn; [lia|]. rewrite app_length. pose proof (spelled_len _ _ U). lia. }
          rewrite !app_length in L. lia. }
      eexists _, _. split; [reflexivity|]. intros _. split; [|split; [exact Logic.I|]].
      + rewrite !app_length. cbn [length]. rewrite !app_length. lia.
      + exists w, ([34] ++ concat parts ++ t). split; [rewrite <- !app_assoc; cbn [app]; repeat f_equal; lia|]. split; [exact F|]. apply fd_string; auto.
    - destruct ((c =? 45) || ((48 <=? c) && (c <=? 57))) eqn:EN.
      + assert (CD : digitc (hd 0 (c :: r)) \/ hd 0 (c :: r) = 45) by (cbn; unfold digitc; lia).
        pose proof (number_eq e c r f ltac:(lia)) as N. destruct (pnumber e (c :: r)) as [[s r']|] eqn:P; cbn [res list_un] in *.
        * rewrite N. eexists _, _. split; [reflexivity|]. intros _. destruct (pnumber_some e _ _ _ CD P) as (i & fr & x & LN & -> & E2 & EE & NN).
          destruct (lex_number_nonempty _ _ _ LN) as (N1 & N2 & N3). split; [|split].
          -- assert (length (c :: r) = length ((i ++ fr ++ x) ++ r')) by (rewrite E2; reflexivity). rewrite (app_length (i ++ fr ++ x)) in H. cbn [length] in *. lia.
          -- unfold tok_ok. cbn [ttyp tval fst]. rewrite string_of_ascii; auto.
          -- exists w, (i ++ fr ++ x). split; [rewrite E2; reflexivity|]. split; [exact F|]. cbn [fst]. rewrite string_of_ascii by auto. apply fd_number; auto.
        * destruct N as (e' & r' & ->). eexists _, _. split; [reflexivity|]. discriminate.
      + destruct ((c =? 116) || (c =? 102) || (c =? 110)) eqn:EW.
        * pose proof (word_eq (c :: r) f [] ltac:(cbn in *; lia)) as H0.
          assert (Hs : (length (snd (lspan (c :: r))) < length (c :: r))%nat).
          { cbn. replace (islow c) with true by (unfold islow; lia). pose proof (lspan_len r). destruct (lspan r); cbn in *. lia. }
          destruct (lspan (c :: r)) as [wd r'] eqn:LS. destruct H0 as [H1 H2]. cbn [snd] in Hs.
          assert (D : (match r' with [] => e = EOI | _ => True end) \/ (r' = [] /\ e <> EOI)).
          { destruct r'; auto. destruct e; auto; right; split; auto; discriminate. }
          destruct D as [D|[D1 D2]].
          -- rewrite (H1 D). eexists _, _. split; [reflexivity|]. destruct (word_token ([] ++ wd)) as [t [er|]] eqn:WT; cbn; [discriminate|].
             intros _. split; [rewrite app_length; cbn [length] in *; lia|]. split; [eapply word_token_ok; eauto|].
             destruct (lspan_spec _ _ _ LS) as (E1 & E2). exists w, wd. split; [rewrite E1; reflexivity|]. split; [exact F|]. apply fd_word.
             ++ cbn [app] in WT. unfold word_token in WT. unfold words. repeat destruct list_eq_dec; inversion WT; subst; cbn; auto.
             ++ destruct r' as [|c' r']; auto.
          -- rewrite (H2 D1 D2). eexists _, _. split; [reflexivity|]. discriminate.
        * eexists _, _. split; [reflexivity|]. discriminate.
  Qed.


  Lemma list_sim_refl : sim (@eq (list Z)) nx nx.
  Proof. intros k s1 s2 a s2' -> H. exists s2'. split; auto. exists 0%nat. intros m _. exact H. Qed.
  Lemma lex_mono k l a l' : lex nx un k l = Done (a, l') -> exists n, forall m, (n <= m)%nat -> lex nx un m l = Done (a, l').
  Proof.
    intros H. destruct (sim_lex eq nx nx un un list_sim_refl ltac:(intros; subst; reflexivity) k l l a l' eq_refl H) as (l1 & -> & O). exact O.
  Qed.

  Lemma lex_found k l t l' : lex nx un k l = Done ((t, None), l') -> exists w u, l = w ++ u ++ l' /\ Forall wsc w /\ found e u t l'.
  Proof.
    intros H. destruct (lex_mono _ _ _ _ H) as (n & Hn). destruct (lex_total l (n + S (S (length l))) ltac:(lia)) as (r & l2 & H2 & K).
    rewrite Hn in H2 by lia. inversion H2; subst. destruct (K eq_refl) as (_ & _ & w & u & E1 & F & FD). exists w, u. split; auto. split; auto.
    revert F. apply Forall_impl. intros c. unfold isws, wsc. lia.
  Qed.

  (** *** tokens are found *)
  Lemma number_start i f x : lex_number i f x -> exists c s, i ++ f ++ x = c :: s /\ (c = 45 \/ digitc c).
  Proof.
    destruct 1 as [i f x IP _ _|ds f x [NE F] _ _].
    - destruct IP as [|d ds HD FD]; eexists _, _; (split; [reflexivity|]); right; unfold digitc; lia.
    - eexists _, _. split; [reflexivity|]. auto.
  Qed.
  Lemma found_lex u t w text f : found e u t text -> Forall (fun c => isws c = true) w -> (length w + length u + length text + 1 < f)%nat ->
    lex nx un f (w ++ u ++ text) = Done ((t, None), text).
  Proof.
    intros T F L. destruct T as [u t rest P|u t rest P W|i fr x rest LN NN EE|parts s u rest FL LE].
    - unfold punctuation in P. cbn in P. destruct P as [P|[P|[P|[P|[P|[P|[]]]]]]]; inversion P; subst; cbn [app]; rewrite lex_skip; try reflexivity; auto; lia.
    - pose proof (word_eq (u ++ rest) f [] ltac:(rewrite app_length; lia)) as H.
      assert (LS : lspan (u ++ rest) = (u, rest)).
      { destruct (lspan_app u rest) as [->|(c' & I' & N)].
        - destruct rest as [|c rest]; cbn; [rewrite app_nil_r; auto|]. replace (islow c) with false by (unfold islow; lia). cbn. rewrite app_nil_r. reflexivity.
        - exfalso. cbn in P. destruct P as [I|[I|[I|[]]]]; inversion I; subst; cbn in I'; intuition (subst; discriminate). }
      rewrite LS in H. destruct H as [H _]. specialize (H ltac:(destruct rest; auto)).
      cbn in P. destruct P as [I|[I|[I|[]]]]; inversion I; subst; cbn [app text_true text_false text_null] in *; (rewrite lex_skip; [|exact F|reflexivity|lia]);
        (etransitivity; [exact H|reflexivity]).
    - assert (P := pnumber_ok e i fr x rest LN EE NN). destruct (number_start _ _ _ LN) as (c0 & s0 & E0 & C0).
      pose proof (lex_number_nonempty _ _ _ LN) as (_ & _ & ASC). rewrite E0 in *.
      assert (WS0 : isws c0 = false) by (unfold isws; unfold digitc in C0; lia).
      cbn [app]. rewrite lex_skip; [|exact F|exact WS0|lia].
      assert (LA : lex_at f c0 (s0 ++ rest) = lexNumber nx un f (c0 :: s0 ++ rest)).
      { unfold lex_at. unfold digitc in C0. replace (c0 =? 91) with false by lia. replace (c0 =? 93) with false by lia. replace (c0 =? 123) with false by lia. replace (c0 =? 125) with false by lia.
        replace (c0 =? 44) with false by lia. replace (c0 =? 58) with false by lia. replace (c0 =? 34) with false by lia.
        replace ((c0 =? 45) || ((48 <=? c0) && (c0 <=? 57))) with true by lia. reflexivity. }
      rewrite LA. pose proof (number_eq e c0 (s0 ++ rest) f) as NE. cbn [app] in P. rewrite P in NE. cbn [res] in NE.
      rewrite NE by (rewrite app_length; cbn in *; lia). rewrite string_of_ascii; [reflexivity|]. exact ASC.
    - rewrite <- !app_assoc. cbn [app]. rewrite lex_skip; [|exact F|reflexivity|lia].
      change (lex_at f 34 (concat parts ++ u ++ rest)) with (str_loop nx f [] (concat parts ++ u ++ rest)).
      rewrite (str_loop_ok e parts s u rest FL LE); [reflexivity|].
      assert (length parts <= length (concat parts))%nat.
      { clear -FL. induction FL as [|u c parts s U F IH]; cbn; [lia|]. rewrite app_length. pose proof (spelled_len _ _ U). lia. }
      rewrite !app_length in L. lia.
  Qed.

  Lemma delim_number f x c r : delimiter c -> number_ends f x (c :: r).
  Proof. unfold delimiter, wsc, number_ends, digitc. intros D. split; [lia|]. split; intros; lia. Qed.

  Lemma token_found u t text : token_text u t ->
    (ttyp t = tNumber \/ ttyp t = tBoolean \/ ttyp t = tNull -> exists c text', text = c :: text' /\ delimiter c) -> found e u t text.
  Proof.
    intros T D. inversion T as [| | | | | | | | |s (sg & i & fr & x & Es & SG & IP & FP & XP)|parts s SP SC NU]; subst u t;
      try (apply fd_punct; cbn; tauto).
    1-3: destruct (D ltac:(auto)) as (c & text' & -> & DC); apply fd_word; [cbn; tauto|unfold delimiter, wsc in DC; lia].
    - destruct (D ltac:(auto)) as (c & text' & -> & DC).
      assert (LN : lex_number (sg ++ i) fr x).
      { destruct SG; cbn [app]; [constructor; auto|]. apply ln_neg; auto. destruct IP as [|d ds HD FD]; (split; [discriminate|]); constructor; auto; unfold digitc; lia. }
      assert (EL : s = (sg ++ i) ++ fr ++ x) by (rewrite Es, <- !app_assoc; reflexivity). rewrite EL.
      apply fd_number; auto; [apply delim_number; auto|discriminate].
    - assert (FL : Forall2 lex_spelled parts s).
      { clear -SP NU. induction SP as [|u c parts s U SP IH]; constructor; auto.
        - apply ls_standard; auto. intros ->. inversion U as [| | | | | | | | |u0 n UE|u1 n1 u2 n2 E1 E2 A B]; subst; try reflexivity; try congruence.
          + exfalso. apply (NU u); [left; auto|auto].
          + pose proof (pair_big _ _ A B). lia.
        - apply IH. intros u' I. apply NU. right; auto. }
      unfold utf8. rewrite <- string_of_scalars by auto. apply fd_string; auto. constructor.
  Qed.
  Lemma lexed_tokenized text toks rest : lexed text toks rest -> tokenized e text toks rest.
  Proof. induction 1; [constructor|apply tz_ws; auto|apply tz_tok; auto; apply token_found; auto]. Qed.

  (** *** the tokens of a text, and the error after them *)
  Inductive lexes : list Z -> list token -> err -> Prop :=
  | lexes_end l f v e' l' : lex nx un f l = Done ((v, Some e'), l') -> lexes l [] e'
  | lexes_tok l f t l' ts e' : lex nx un f l = Done ((t, None), l') -> lexes l' ts e' -> lexes l (t :: ts) e'.

  Lemma lexes_total l : exists ts e', lexes l ts e' /\ Forall tok_ok ts.
  Proof.
    remember (length l) as n eqn:En. revert l En. induction n as [n IH] using lt_wf_ind. intros l ->.
    destruct (lex_total l (S (S (S (length l)))) ltac:(lia)) as ([t [e'|]] & l' & H & K).
    - exists [], e'. split; auto. eapply lexes_end; eauto.
    - destruct (K eq_refl) as (L & O & _). cbn in O. destruct (IH (length l') L l' eq_refl) as (ts & e' & LX & F).
      exists (t :: ts), e'. split; auto. eapply lexes_tok; eauto.
  Qed.
  Lemma lexes_ok l ts e' : lexes l ts e' -> Forall tok_ok ts.
  Proof.
    induction 1 as [|l f t l' ts e' H LX IH]; constructor; auto.
    destruct (lex_mono _ _ _ _ H) as (n & Hn). destruct (lex_total l (n + S (S (length l))) ltac:(lia)) as (r & l2 & H2 & K).
    rewrite Hn in H2 by lia. inversion H2; subst. destruct (K eq_refl) as (_ & O & _). exact O.
  Qed.

  Lemma lexes_ws c l ts e' : wsc c -> lexes l ts e' -> lexes (c :: l) ts e'.
  Proof.
    intros W LX.
    assert (KEY : forall f r l', lex nx un f l = Done (r, l') -> exists m l2, lex nx un m (c :: l) = Done (r, l2) /\ (snd r = None -> l2 = l')).
    { intros f r l' H. destruct (lex_mono _ _ _ _ H) as (n & Hn). set (m := (n + S (S (S (length l))))%nat).
      assert (CW : isws c = true) by (unfold isws; unfold wsc in W; lia).
      destruct (ws_eq l m ltac:(lia)) as (w & r0 & El & F & Hr). specialize (Hn m ltac:(lia)). exists m. destruct r0 as [|c1 r1].
      - rewrite app_nil_r in El. subst w. destruct (lex_allws (c :: l) m) as (l2 & H2); [constructor; auto|cbn; lia|].
        destruct (lex_allws l m) as (l3 & H3); [auto|lia|]. rewrite H3 in Hn. inversion Hn; subst. exists l2. split; auto. discriminate.
      - destruct Hr as [N _]. exists l'. subst l. rewrite lex_skip in Hn; auto; [|unfold m; rewrite app_length; cbn; lia].
        split; auto. change (c :: w ++ c1 :: r1) with ((c :: w) ++ c1 :: r1). rewrite lex_skip; auto. unfold m. rewrite app_length. cbn. lia. }
    destruct LX as [l f v e' l' H|l f t l' ts e' H LX]; destruct (KEY _ _ _ H) as (m & l2 & H2 & E2).
    - eapply lexes_end; eauto.
    - rewrite E2 in H2 by reflexivity. eapply lexes_tok; eauto.
  Qed.

  Lemma tokenized_lexes text toks rest more e' : tokenized e text toks rest -> lexes rest more e' -> lexes text (toks ++ more) e'.
  Proof.
    intros X LX. induction X as [rest|c text toks rest W X IH|u t text toks rest T X IH]; auto.
    - apply lexes_ws; auto.
    - cbn [app]. eapply lexes_tok; [|apply IH; auto].
      apply (found_lex u t [] text (S (S (length u + length text))) T (Forall_nil _)). cbn. lia.
  Qed.
  Lemma tokenized_wss w text toks rest : Forall wsc w -> tokenized e text toks rest -> tokenized e (w ++ text) toks rest.
  Proof. induction 1; cbn; auto. intros. apply tz_ws; auto. Qed.
  Lemma lexes_tokenized text toks e' : lexes text toks e' -> exists rest, tokenized e text toks rest /\ lexes rest [] e'.
  Proof.
    induction 1 as [l f v e' l' H|l f t l' ts e' H LX (rest & IH & LE)].
    - exists l. split; [constructor|]. eapply lexes_end; eauto.
    - exists rest. split; auto. destruct (lex_found _ _ _ _ H) as (w & u & -> & W & FD). apply tokenized_wss; auto. apply tz_tok; auto.
  Qed.
  Lemma lexes_det l ts1 e1 ts2 e2 : lexes l ts1 e1 -> lexes l ts2 e2 -> ts1 = ts2 /\ e1 = e2.
  Proof.
    assert (D : forall k1 k2 l a1 l1 a2 l2, lex nx un k1 l = Done (a1, l1) -> lex nx un k2 l = Done (a2, l2) -> a1 = a2 /\ l1 = l2).
    { intros k1 k2 l0 a1 l1 a2 l2 H1 H2. destruct (lex_mono _ _ _ _ H1) as (n1 & K1). destruct (lex_mono _ _ _ _ H2) as (n2 & K2).
      specialize (K1 (n1 + n2)%nat ltac:(lia)). rewrite K2 in K1 by lia. inversion K1; auto. }
    intros X1. revert ts2 e2. induction X1 as [l f v e' l' H|l f t l' ts e' H LX IH]; intros ts2 e2 X2; inversion X2 as [? f2 v2 ? l2 H2|? f2 t2 l2 ts3 ? H2 LX2]; subst;
      destruct (D _ _ _ _ _ _ _ H H2) as [A B]; inversion A; subst; auto.
    destruct (IH _ _ LX2). subst. auto.
  Qed.
End Tok.

(** ** Any rune iterator *)
Section Real.
  Context {I T : Type} `{Zero T}.
  Variables (nx : stepfn I T) (un : I -> T -> I) (e : err).
  Hypothesis UN : forall s v, returns nx (un s v) (v, None) s.
  Lemma yields_sim : sim (fun s l => yields nx s l e) nx (list_nx e).
  Proof.
    intros k s l a l' Y H1. unfold list_nx in H1. destruct l as [|x l]; inversion H1; subst.
    - apply yields_nil_inv in Y. destruct (stuck_inv _ _ _ Y) as (s' & R & ST). exists s'. split; [|exact R]. exists s'. split; auto. constructor.
    - apply yields_cons_inv in Y as (s' & R & Y). exists s'. split; [exact Y|exact R].
  Qed.
  Lemma yields_un s l v : yields nx s l e -> yields nx (un s v) (v :: l) e.
  Proof. intros Y. eapply yields_cons; eauto. Qed.
End Real.

Lemma unread_returns {S T} `{Zero T} (fn : stepfn S T) it v : returns (next fn) (unread it v) (v, None) it.
Proof.
  exists 0%nat. intros m _. unfold next, unread. cbn [buffer fn_live src last_err]. rewrite nth_error_snoc, firstn_snoc. destruct it; reflexivity.
Qed.

Section Lexer.
  Context {S : Type} (fn : stepfn S Z).
  Lemma lexes_yields it l e ts e' : yields (next fn) it l e -> lexes e l ts e' -> yields (next (lexer_gen fn)) (lexer it) ts e'.
  Proof.
    intros Y LX.
    assert (K : exists it1 it2, emits (lexer_gen fn) it ts it1 /\ fails (lexer_gen fn) it1 e' it2).
    { assert (STEP : forall k it l a l', yields (next fn) it l e -> lex (list_nx e) list_un k l = Done (a, l') ->
          exists it', yields (next fn) it' l' e /\ returns (lexer_gen fn) it a it').
      { intros k i0 l0 a l' Y0 H0.
        destruct (sim_lex (fun s l => yields (next fn) s l e) (next fn) (list_nx e) unread list_un
           (yields_sim (next fn) e) (fun s1 s2 v => yields_un (next fn) unread e (unread_returns fn) s1 s2 v) k i0 l0 a l' Y0 H0) as (i1 & Y1 & O).
        exists i1. split; auto. }
      revert it Y. induction LX as [l f v e' l' H|l f t l' ts e' H LX IH]; intros it Y; destruct (STEP _ _ _ _ _ Y H) as (it' & Y' & R).
      - exists it, it'. split; [constructor|]. exists v. exact R.
      - destruct (IH it' Y') as (i1 & i2 & EM & FA). exists i1, i2. split; auto. econstructor; eauto. }
    destruct K as (i1 & i2 & EM & FA). eapply ofIter_yields; eauto.
  Qed.
End Lexer.
