(** The lexer on the list iterator. *)
From Verif Require Import Base ReaderSpec Writer JsonLex JsonSim JsonSpec.
From Coq Require Import ZifyBool.
Open Scope Z_scope.

Lemma string_of_ascii l : Forall (fun c => 0 <= c < 128) l -> string_of_runes l = l.
Proof.
  induction 1 as [|c l H _ IH]; [reflexivity|]. unfold string_of_runes in *. cbn [flat_map]. rewrite IH.
  unfold string_of_rune, is_scalar, encode. replace ((0 <=? c) && (c <=? 1114111) && negb ((55296 <=? c) && (c <=? 57343))) with true by lia.
  replace (c <? 128) with true by lia. reflexivity.
Qed.

Lemma string_of_scalars l : Forall scalar l -> string_of_runes l = flat_map encode l.
Proof.
  induction 1 as [|c l H _ IH]; [reflexivity|]. unfold string_of_runes in *. cbn [flat_map]. rewrite IH.
  unfold string_of_rune, is_scalar. unfold scalar in H.
  replace ((0 <=? c) && (c <=? 1114111) && negb ((55296 <=? c) && (c <=? 57343))) with true by lia. reflexivity.
Qed.

(** ** Numbers *)
Definition isd (c : Z) : bool := (48 <=? c) && (c <=? 57).
Lemma isd_spec c : isd c = true <-> digitc c.
Proof. unfold isd, digitc. lia. Qed.

Fixpoint span (l : list Z) : list Z * list Z :=
  match l with
  | [] => ([], [])
  | c :: r => if isd c then let '(a, b) := span r in (c :: a, b) else ([], l)
  end.
Lemma span_spec l ds r : span l = (ds, r) -> l = ds ++ r /\ Forall digitc ds /\ (forall c r', r = c :: r' -> ~ digitc c).
Proof.
  revert ds r. induction l as [|c l IH]; cbn; intros ds r H.
  - inversion H; subst. repeat split; auto; discriminate.
  - destruct (isd c) eqn:D.
    + destruct (span l) as [a b]. inversion H; subst. destruct (IH _ _ eq_refl) as (-> & F & N).
      repeat split; auto. constructor; auto. apply isd_spec; auto.
    + inversion H; subst. repeat split; auto. intros c' r' E. inversion E; subst. rewrite <- isd_spec. congruence.
Qed.
Lemma span_app ds r : Forall digitc ds -> (forall c r', r = c :: r' -> ~ digitc c) -> span (ds ++ r) = (ds, r).
Proof.
  intros F N. induction F as [|c ds H _ IH]; cbn.
  - destruct r as [|c r]; cbn; auto. specialize (N _ _ eq_refl). rewrite <- isd_spec in N. destruct (isd c); congruence.
  - apply isd_spec in H. rewrite H. rewrite IH. reflexivity.
Qed.

Definition nonempty {A} (l : list A) : bool := match l with [] => false | _ => true end.

Section Num.
  Variable e : err.
  Notation nx := (list_nx (T := Z) e).
  Notation un := (list_un (T := Z)).
  Definition at_end (r : list Z) : bool := match r with [] => match e with EOI => true | _ => false end | _ => true end.

  Definition pexp_loop (str : list Z) (hd : bool) (l : list Z) : option (list Z * list Z) :=
    let '(ds, r) := span l in if (hd || nonempty ds) && at_end r then Some (str ++ ds, r) else None.
  Definition pexp (str : list Z) (l : list Z) : option (list Z * list Z) :=
    match l with
    | [] => None
    | c :: r => if (c =? 43) || (c =? 45) then pexp_loop (str ++ [c]) false r else pexp_loop str false l
    end.
  Definition pfrac (str : list Z) (hd : bool) (l : list Z) : option (list Z * list Z) :=
    let '(ds, r) := span l in
    match r with
    | c :: r' => if (c =? 101) || (c =? 69) then if hd || nonempty ds then pexp (str ++ ds ++ [c]) r' else None
                 else if hd || nonempty ds then Some (str ++ ds, r) else None
    | [] => if (hd || nonempty ds) && at_end [] then Some (str ++ ds, []) else None
    end.
  Definition pint (str : list Z) (hd : bool) (l : list Z) : option (list Z * list Z) :=
    let '(ds, r) := span l in
    match r with
    | c :: r' =>
        if hd || nonempty ds then
          if c =? 46 then pfrac (str ++ ds ++ [c]) false r'
          else if (c =? 101) || (c =? 69) then pexp (str ++ ds ++ [c]) r' else Some (str ++ ds, r)
        else None
    | [] => if (hd || nonempty ds) && at_end [] then Some (str ++ ds, []) else None
    end.
  Definition pzero (l : list Z) : option (list Z * list Z) :=
    match l with
    | c :: _ => if isd c then None else pint [48] true l
    | [] => pint [48] true l
    end.

  Definition res (p : option (list Z * list Z)) (o : outcome (ret token * list Z)) : Prop :=
    match p with
    | Some (s, r) => o = Done ((mkTok tNumber (string_of_runes s), None), r)
    | None => exists e' r', o = Done ((zt, Some e'), r')
    end.

  Ltac fin := try (do 2 eexists; reflexivity).

  Lemma exp_loop_eq l : forall f str hd, (length l < f)%nat -> res (pexp_loop str hd l) (num_exp_loop nx un f str hd l).
  Proof.
    induction l as [|c l IH]; intros [|f] str hd L; cbn in L; try lia; unfold pexp_loop; cbn [span num_exp_loop list_nx obind].
    - cbn [nonempty]. rewrite orb_false_r, app_nil_r. unfold at_end, num_tok, num_die. destruct e, hd; cbn; fin; reflexivity.
    - fold (isd c). destruct (isd c) eqn:D.
      + specialize (IH f (str ++ [c]) true ltac:(lia)). unfold pexp_loop in IH. destruct (span l) as [ds r].
        cbn [nonempty]. rewrite orb_true_r. cbn [orb] in IH. rewrite <- app_assoc in IH. exact IH.
      + cbn [nonempty at_end]. rewrite orb_false_r, app_nil_r, andb_true_r. unfold num_tok, num_die. destruct hd; cbn; fin; reflexivity.
  Qed.

  Lemma exp_eq l f str : (S (length l) < f)%nat -> res (pexp str l) (num_exp nx un f str l).
  Proof.
    intros L. unfold pexp, num_exp. destruct l as [|c l]; cbn [list_nx obind length] in *.
    - unfold num_die. fin.
    - destruct ((c =? 43) || (c =? 45)); [apply exp_loop_eq; lia|]. cbn [list_un]. apply exp_loop_eq. cbn. lia.
  Qed.

  Lemma frac_eq l : forall f str hd, (S (length l) < f)%nat -> res (pfrac str hd l) (num_frac_loop nx un f str hd l).
  Proof.
    induction l as [|c l IH]; intros [|f] str hd L; cbn in L; try lia; unfold pfrac; cbn [span num_frac_loop list_nx obind].
    - cbn [nonempty]. rewrite orb_false_r, app_nil_r. unfold at_end, num_tok, num_die. destruct e, hd; cbn; fin; reflexivity.
    - fold (isd c). destruct (isd c) eqn:D.
      + specialize (IH f (str ++ [c]) true ltac:(lia)). unfold pfrac in IH. destruct (span l) as [ds r].
        cbn [nonempty]. rewrite orb_true_r. cbn [orb] in IH. destruct r as [|c0 r0]; rewrite <- ?app_assoc in IH; exact IH.
      + cbn [nonempty]. rewrite orb_false_r, app_nil_r. cbn [app].
        destruct ((c =? 101) || (c =? 69)); destruct hd; unfold num_tok, num_die; cbn; fin; try reflexivity.
        apply exp_eq. lia.
  Qed.

  Lemma int_eq l : forall f str hd, (S (length l) < f)%nat -> res (pint str hd l) (num_int_loop nx un f str hd false l).
  Proof.
    induction l as [|c l IH]; intros [|f] str hd L; cbn in L; try lia; unfold pint; cbn [span num_int_loop list_nx obind].
    - cbn [nonempty]. rewrite orb_false_r, app_nil_r. unfold at_end, num_tok, num_die. destruct e, hd; cbn; fin; reflexivity.
    - fold (isd c). destruct (isd c) eqn:D.
      + specialize (IH f (str ++ [c]) true ltac:(lia)). unfold pint in IH. destruct (span l) as [ds r].
        cbn [nonempty]. rewrite orb_true_r. cbn [orb] in IH. destruct r as [|c0 r0]; rewrite <- ?app_assoc in IH; exact IH.
      + cbn [nonempty]. rewrite orb_false_r, app_nil_r. cbn [app].
        destruct (c =? 46) eqn:E46; [|destruct ((c =? 101) || (c =? 69))]; destruct hd; unfold num_tok, num_die; cbn; fin; try reflexivity.
        * apply Z.eqb_eq in E46; subst c. apply frac_eq. lia.
        * apply exp_eq. lia.
  Qed.

  Lemma int_zero_eq l f : (S (length l) < f)%nat -> res (pzero l) (num_int_loop nx un f [48] true true l).
  Proof.
    intros L. unfold pzero. destruct l as [|c l].
    - destruct f as [|f]; [cbn in L; lia|]. cbn [num_int_loop list_nx obind]. unfold pint, num_tok, num_die, at_end. cbn. destruct e; cbn; fin; reflexivity.
    - destruct (isd c) eqn:D.
      + destruct f as [|f]; [cbn in L; lia|]. cbn [num_int_loop list_nx obind]. fold (isd c). rewrite D. unfold num_die; fin.
      + pose proof (int_eq (c :: l) f [48] true L) as H. destruct f as [|f]; [cbn in L; lia|]. cbn [num_int_loop list_nx obind] in *.
        fold (isd c) in *. rewrite D in *. exact H.
  Qed.

  (** lexNumber on a list that starts with a digit or a minus sign *)
  Definition pnumber (l : list Z) : option (list Z * list Z) :=
    match l with
    | [] => None
    | c :: r => if c =? 48 then pzero r else pint [c] (negb (c =? 45)) r
    end.

  Lemma number_eq c l f : (S (length l) < f)%nat -> res (pnumber (c :: l)) (lexNumber nx un f (c :: l)).
  Proof.
    intros L. unfold lexNumber, pnumber. cbn [list_nx obind fst]. destruct (c =? 48) eqn:E.
    - apply Z.eqb_eq in E. subst c. cbn [Z.eqb negb]. apply int_zero_eq; auto.
    - apply int_eq; auto.
  Qed.

  (** *** the grammar *)
  Lemma pexp_loop_some str l s r : pexp_loop str false l = Some (s, r) ->
    exists ds, digits1 ds /\ s = str ++ ds /\ l = ds ++ r /\ (r = [] -> e = EOI) /\ (forall c r', r = c :: r' -> ~ digitc c).
  Proof.
    unfold pexp_loop. destruct (span l) as [ds r0] eqn:Sp. apply span_spec in Sp as (-> & F & N).
    cbn [orb]. destruct (nonempty ds && at_end r0) eqn:C; [|discriminate]. intros H. inversion H; subst.
    apply andb_true_iff in C as [C1 C2]. exists ds. repeat split; auto.
    - intros ->. discriminate.
    - intros ->. cbn in C2. destruct e; congruence.
  Qed.
  Lemma pexp_loop_ok str ds r : digits1 ds -> (r = [] -> e = EOI) -> (forall c r', r = c :: r' -> ~ digitc c) ->
    pexp_loop str false (ds ++ r) = Some (str ++ ds, r).
  Proof.
    intros [NE F] E N. unfold pexp_loop. rewrite span_app by auto. destruct ds; [congruence|]. cbn.
    unfold at_end. destruct r; auto. rewrite E by auto. reflexivity.
  Qed.

  Lemma pexp_some str l s r : pexp str l = Some (s, r) ->
    exists sg ds, (sg = [] \/ sg = [43] \/ sg = [45]) /\ digits1 ds /\ s = str ++ sg ++ ds /\ l = sg ++ ds ++ r /\
      (r = [] -> e = EOI) /\ (forall c r', r = c :: r' -> ~ digitc c).
  Proof.
    unfold pexp. destruct l as [|c l]; [discriminate|]. destruct ((c =? 43) || (c =? 45)) eqn:C; intros H.
    - apply pexp_loop_some in H as (ds & D & -> & -> & E & N). exists [c], ds. rewrite <- app_assoc. repeat split; auto; try apply D.
      right. apply orb_true_iff in C as [C|C]; apply Z.eqb_eq in C; subst; auto.
    - apply pexp_loop_some in H as (ds & D & -> & E1 & E & N). exists [], ds. repeat split; auto; apply D.
  Qed.
  Lemma pexp_ok str sg ds r : sg = [] \/ sg = [43] \/ sg = [45] -> digits1 ds -> (r = [] -> e = EOI) ->
    (forall c r', r = c :: r' -> ~ digitc c) -> pexp str (sg ++ ds ++ r) = Some (str ++ sg ++ ds, r).
  Proof.
    intros SG D E N. assert (exists d ds', ds = d :: ds' /\ digitc d) as (d & ds' & Ed & Hd).
    { destruct D as [NE F]. destruct ds as [|d ds']; [congruence|]. inversion F; subst; eauto. }
    destruct SG as [->|[->| ->]]; cbn [app pexp].
    - rewrite Ed. cbn [app]. unfold pexp. unfold digitc in Hd. replace ((d =? 43) || (d =? 45)) with false by lia.
      change (d :: ds' ++ r) with ((d :: ds') ++ r). rewrite <- Ed. apply pexp_loop_ok; auto.
    - cbn. rewrite pexp_loop_ok by auto. rewrite <- app_assoc. reflexivity.
    - cbn. rewrite pexp_loop_ok by auto. rewrite <- app_assoc. reflexivity.
  Qed.

  Lemma pfrac_some str l s r : pfrac str false l = Some (s, r) ->
    exists ds x, digits1 ds /\ exp_part x /\ s = str ++ ds ++ x /\ l = ds ++ x ++ r /\ (r = [] -> e = EOI) /\
      (forall c r', r = c :: r' -> ~ digitc c /\ (x = [] -> c <> 101 /\ c <> 69)).
  Proof.
    unfold pfrac. destruct (span l) as [ds r0] eqn:Sp. apply span_spec in Sp as (-> & F & N). cbn [orb].
    destruct ds as [|d ds]. { cbn. destruct r0 as [|c r0]; [discriminate|]. destruct ((c =? 101) || (c =? 69)); discriminate. }
    assert (D : digits1 (d :: ds)) by (split; [discriminate|auto]).
    destruct r0 as [|c r0].
    - cbn [nonempty andb]. unfold at_end. destruct e eqn:Ee; try discriminate. intros H; inversion H; subst.
      exists (d :: ds), []. rewrite !app_nil_r. refine (conj D (conj exp_none (conj eq_refl (conj eq_refl (conj _ _))))); [auto|discriminate].
    - cbn [nonempty]. destruct ((c =? 101) || (c =? 69)) eqn:C; intros H.
      + apply pexp_some in H as (sg & es & SG & DE & -> & -> & E & NN).
        exists (d :: ds), (c :: sg ++ es). repeat split; auto; try apply D.
        * constructor; auto. lia.
        * rewrite <- !app_assoc. reflexivity.
        * cbn. rewrite <- !app_assoc. reflexivity.
        * eapply NN; eauto.
        * discriminate.
        * discriminate.
      + inversion H; subst. exists (d :: ds), []. rewrite app_nil_r. split; [exact D|]. split; [constructor|]. split; [auto|]. split; [auto|]. split; [discriminate|].
        intros c' r' E. inversion E; subst. split; [eapply N; eauto|]. intros _. lia.
  Qed.
  Lemma pfrac_ok str ds x r : digits1 ds -> exp_part x -> (r = [] -> e = EOI) ->
    (forall c r', r = c :: r' -> ~ digitc c /\ (x = [] -> c <> 101 /\ c <> 69)) -> pfrac str false (ds ++ x ++ r) = Some (str ++ ds ++ x, r).
  Proof.
    intros D X E N. unfold pfrac.
    assert (NE : nonempty ds = true) by (destruct D as [NE _]; destruct ds; cbn; congruence).
    inversion X as [|ec sg es HE SG DE Ex]; subst x.
    - rewrite span_app; [|apply D|intros; eapply N; eauto]. cbn [app orb]. rewrite NE, app_nil_r.
      destruct r as [|c r]; cbn [at_end andb]. { rewrite E by auto. reflexivity. }
      destruct (N _ _ eq_refl) as [_ N2]. specialize (N2 eq_refl). replace ((c =? 101) || (c =? 69)) with false by lia. reflexivity.
    - rewrite span_app; [|apply D|]. 2:{ intros c r' H. cbn in H. inversion H; subst. unfold digitc. lia. }
      cbn [app orb]. rewrite NE. replace ((ec =? 101) || (ec =? 69)) with true by lia.
      rewrite <- app_assoc, pexp_ok; auto. { rewrite <- !app_assoc. reflexivity. } intros; eapply N; eauto.
  Qed.

  (** after the first characters [str] of the integer part *)
  Lemma pint_some str hd l s r : pint str hd l = Some (s, r) ->
    exists ds f x, (hd = true \/ ds <> []) /\ Forall digitc ds /\ frac_part f /\ exp_part x /\ s = str ++ ds ++ f ++ x /\ l = ds ++ f ++ x ++ r /\
      (r = [] -> e = EOI) /\ number_ends f x r.
  Proof.
    unfold pint. destruct (span l) as [ds r0] eqn:Sp. apply span_spec in Sp as (-> & F & N).
    assert (HD : hd || nonempty ds = true -> hd = true \/ ds <> []).
    { intros H. apply orb_true_iff in H as [H|H]; auto. right. intros ->. discriminate. }
    destruct r0 as [|c r0].
    - destruct (hd || nonempty ds) eqn:Hn; [|discriminate]. cbn [andb]. unfold at_end. destruct e eqn:Ee; try discriminate. intros H; inversion H; subst.
      exists ds, [], []. rewrite !app_nil_r. refine (conj (HD eq_refl) (conj F (conj frac_none (conj exp_none (conj eq_refl (conj eq_refl (conj _ _))))))); [auto|exact Logic.I].
    - destruct (hd || nonempty ds) eqn:Hn; [|discriminate]. specialize (HD eq_refl).
      destruct (c =? 46) eqn:C46; [|destruct ((c =? 101) || (c =? 69)) eqn:CE]; intros H.
      + apply pfrac_some in H as (fs & x & DF & X & -> & -> & E & NN). assert (c = 46) by lia; subst c.
        exists ds, (46 :: fs), x. split; [auto|]. split; [auto|]. split; [constructor; auto|]. split; [auto|]. split; [rewrite <- !app_assoc; reflexivity|].
        split; [reflexivity|]. split; [auto|]. unfold number_ends. destruct r as [|c r]; auto. destruct (NN _ _ eq_refl). split; auto. split; auto. discriminate.
      + apply pexp_some in H as (sg & es & SG & DE & -> & -> & E & NN).
        exists ds, [], (c :: sg ++ es). split; [auto|]. split; [auto|]. split; [constructor|]. split; [constructor; auto; lia|]. split; [rewrite <- !app_assoc; reflexivity|].
        split; [cbn; rewrite <- !app_assoc; reflexivity|]. split; [auto|]. unfold number_ends. destruct r as [|c' r]; auto. split; [eapply NN; eauto|]. split; discriminate.
      + inversion H; subst. exists ds, [], []. rewrite !app_nil_r. cbn [app]. split; [auto|]. split; [auto|]. split; [constructor|]. split; [constructor|]. split; [auto|]. split; [auto|].
        split; [discriminate|]. unfold number_ends. split; [eapply N; eauto|]. split; intros; lia.
  Qed.
  Lemma pint_ok str hd ds f x r : hd = true \/ ds <> [] -> Forall digitc ds -> frac_part f -> exp_part x -> (r = [] -> e = EOI) ->
    number_ends f x r -> pint str hd (ds ++ f ++ x ++ r) = Some (str ++ ds ++ f ++ x, r).
  Proof.
    intros HD F FP X E N. unfold pint.
    assert (Hn : hd || nonempty ds = true). { destruct HD as [->|HD]; auto. destruct ds; [congruence|]. apply orb_true_r. }
    inversion FP as [|fs DF Ef]; subst f.
    - cbn [app]. inversion X as [|ec sg es HE SG DE Ex]; subst x.
      + cbn [app]. rewrite span_app; auto. 2:{ intros c r' ->. apply N. }
        rewrite !app_nil_r. destruct r as [|c r]; rewrite Hn; cbn [andb]. { unfold at_end. rewrite E; auto. }
        destruct N as (N1 & N2 & N3). specialize (N2 eq_refl). specialize (N3 eq_refl eq_refl).
        replace (c =? 46) with false by lia. replace ((c =? 101) || (c =? 69)) with false by lia. reflexivity.
      + rewrite span_app; auto. 2:{ intros c r' H. cbn in H. inversion H; subst. unfold digitc. lia. }
        cbn [app]. rewrite Hn. replace (ec =? 46) with false by lia. replace ((ec =? 101) || (ec =? 69)) with true by lia.
        rewrite <- app_assoc, pexp_ok; auto. { rewrite <- !app_assoc. reflexivity. } intros c r' ->. apply N.
    - cbn [app]. rewrite span_app; auto. 2:{ intros c r' H. inversion H; subst. unfold digitc. lia. }
      rewrite Hn. cbn [Z.eqb Pos.eqb]. rewrite pfrac_ok; auto. { rewrite <- !app_assoc. reflexivity. }
      intros c r' ->. destruct N as (N1 & N2 & N3). auto.
  Qed.

  Lemma pnumber_some l s r : digitc (hd 0 l) \/ hd 0 l = 45 -> pnumber l = Some (s, r) ->
    exists i f x, lex_number i f x /\ s = i ++ f ++ x /\ l = s ++ r /\ (r = [] -> e = EOI) /\ number_ends f x r.
  Proof.
    destruct l as [|c l]; [cbn; discriminate|]. cbn [hd pnumber]. intros C. destruct (c =? 48) eqn:E.
    - apply Z.eqb_eq in E. subst c. unfold pzero. intros H.
      assert (H' : pint [48] true l = Some (s, r) /\ forall d l', l = d :: l' -> isd d = false).
      { destruct l as [|d l]; [split; auto; discriminate|]. destruct (isd d) eqn:D; [discriminate|]. split; auto. intros d' l' X; inversion X; subst; auto. }
      destruct H' as [H1 H2]. apply pint_some in H1 as (ds & f & x & _ & F & FP & X & -> & -> & EE & N).
      destruct ds as [|d ds]. 2:{ specialize (H2 _ _ eq_refl). inversion F; subst. apply isd_spec in H3. congruence. }
      exists [48], f, x. split; [constructor; auto; constructor|]. split; [auto|]. split; [cbn; rewrite <- !app_assoc; reflexivity|]. auto.
    - intros H. apply pint_some in H as (ds & f & x & HD & F & FP & X & -> & -> & EE & N).
      exists (c :: ds), f, x. split; [|split; [auto|split; [cbn; rewrite <- !app_assoc; reflexivity|auto]]].
      destruct C as [C| ->].
      + apply ln_pos; auto. apply int_nonzero; auto. unfold digitc in C. lia.
      + apply ln_neg; auto. split; auto. destruct HD as [HD|HD]; auto; discriminate.
  Qed.

  Lemma pnumber_ok i f x r : lex_number i f x -> (r = [] -> e = EOI) -> number_ends f x r ->
    pnumber ((i ++ f ++ x) ++ r) = Some (i ++ f ++ x, r).
  Proof.
    intros H E N. rewrite <- !app_assoc. inversion H as [i0 f0 x0 IP FP X | ds f0 x0 D FP X]; subst.
    - inversion IP as [|d ds D F]; subst; cbn [app pnumber].
      + cbn [Z.eqb Pos.eqb]. unfold pzero. assert (P := pint_ok [48] true [] f x r (or_introl eq_refl) (Forall_nil _) FP X E N).
        cbn [app] in P. destruct (f ++ x ++ r) as [|c l] eqn:Ef; [exact P|].
        destruct (isd c) eqn:Dc; [|exact P]. exfalso. apply isd_spec in Dc.
        destruct FP as [|fs]; [|inversion Ef; subst; unfold digitc in Dc; lia].
        destruct X as [|ec]; [|inversion Ef; subst; unfold digitc in Dc; lia]. cbn in Ef. subst r. apply N in Dc. exact Dc.
      + replace (d =? 48) with false by lia. replace (negb (d =? 45)) with true by lia.
        rewrite pint_ok; auto.
    - cbn [app pnumber Z.eqb Pos.eqb negb]. destruct D as [NE F]. rewrite pint_ok; auto.
  Qed.
End Num.
