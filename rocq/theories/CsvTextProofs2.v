(** Proofs about the model of encoding/csv's reader: records and documents. *)
From Coq Require Import List ZArith Bool Lia.
From Verif Require Import Base CsvText CsvTextSpec CsvTextProofs Csv CsvSpec.
Import ListNotations.
Open Scope Z_scope.

Section Reader.
  Variable e0 : err.
  Notation read_line := (read_line e0).
  Notation skip_blank := (skip_blank e0).
  Notation read_fields := (read_fields e0).
  Notation view := (view e0).
  Notation fieldsW := (fieldsW e0).
  Notation closes := (closes e0).
  Notation csv_parse := (csv_parse e0).

  Lemma read_view R l er t : read_line R = ((l, er), t) -> view R = ((l, noeof er), t).
  Proof. intros E. unfold CsvTextProofs.view. now rewrite E. Qed.
  Lemma read_len R l t : read_line R = ((l, None), t) -> (length t < length R)%nat.
  Proof.
    unfold CsvText.read_line. pose proof (cut_spec LF R) as [_ E]. destruct (cut LF R) as [p [r|]]; cbn [fst snd] in E.
    - intros H. injection H as <- <-. rewrite E, app_length. cbn [length]. lia.
    - rewrite app_nil_r in E. subst p. destruct R as [|x R]; [discriminate|]. destruct e0; intros H; try discriminate. injection H as _ <-. cbn. lia.
  Qed.
  Lemma read_err R l e t : read_line R = ((l, Some e), t) -> e = e0 /\ t = [] /\ (e0 = EOF -> R = []).
  Proof.
    unfold CsvText.read_line. pose proof (cut_spec LF R) as [_ E]. destruct (cut LF R) as [p [r|]]; [discriminate|]. cbn [fst snd] in E. rewrite app_nil_r in E. subst p.
    destruct R as [|x R]; [intros H; injection H as _ <- <-; auto|]. destruct e0; intros H; try discriminate; injection H as _ <- <-; (split; [reflexivity|]; split; [reflexivity|discriminate]).
  Qed.
  Lemma read_none R l t : view R = ((l, None), t) -> R <> [] -> read_line R = ((l, None), t).
  Proof.
    unfold CsvTextProofs.view. destruct (read_line R) as [[l' er] t'] eqn:E. intros V N. injection V as -> A ->. destruct er as [e|]; [|reflexivity].
    apply read_err in E as (-> & _ & Q). exfalso. cbn in A. destruct e0; try discriminate A. apply N. now apply Q.
  Qed.

  (** ** empty lines *)
  Lemma skip_fuel : forall f1 f2 txt, (length txt < f1)%nat -> (length txt < f2)%nat -> skip_blank f1 txt = skip_blank f2 txt.
  Proof.
    induction f1 as [|f1 IH]; intros f2 txt L1 L2; [lia|]. destruct f2 as [|f2]; [lia|]. cbn [CsvText.skip_blank].
    destruct (read_line txt) as [[l [e|]] t] eqn:E; [reflexivity|]. destruct (is_nl l); [|reflexivity]. apply read_len in E. apply IH; lia.
  Qed.
  Definition skipW (txt : bytes) := skip_blank (S (length txt)) txt.
  Definition nonblank (R : bytes) : Prop := forall l t, read_line R = ((l, None), t) -> is_nl l = false.
  Definition blanks (bl : list line_end) : bytes := flat_map end_text bl.
  Lemma skip_stop R : nonblank R -> skipW R = read_line R.
  Proof.
    intros N. unfold skipW. cbn [CsvText.skip_blank]. destruct (read_line R) as [[l [e|]] t] eqn:E; [reflexivity|]. now rewrite (N _ _ E).
  Qed.
  Lemma skip_end e t : inner_end e -> skipW (end_text e ++ t) = skipW t.
  Proof.
    intros [-> | ->]; unfold skipW at 1; cbn [end_text app CsvText.skip_blank].
    - change (read_line (LF :: t)) with (([LF], @None err), t). cbn [is_nl]. rewrite Z.eqb_refl. unfold skipW. apply skip_fuel; cbn; lia.
    - change (read_line (CR :: LF :: t)) with (([LF], @None err), t). cbn [is_nl]. rewrite Z.eqb_refl. unfold skipW. apply skip_fuel; cbn; lia.
  Qed.
  Lemma skip_ends bl t : Forall inner_end bl -> skipW (blanks bl ++ t) = skipW t.
  Proof. induction 1 as [|e bl I F IH]; [reflexivity|]. cbn [blanks flat_map]. rewrite <- app_assoc. rewrite skip_end by exact I. exact IH. Qed.
  Lemma skip_spec : forall n txt, (length txt <= n)%nat -> exists bl tail R, txt = blanks bl ++ tail ++ R /\ Forall inner_end bl /\
    (tail = [] \/ (tail = [CR] /\ R = [] /\ e0 = EOF)) /\ skipW txt = read_line R /\ nonblank R.
  Proof.
    induction n as [|n IH]; intros txt L.
    - destruct txt; [|cbn in L; lia]. exists [], [], []. split; [reflexivity|]. split; [constructor|]. split; [auto|].
      assert (N : nonblank []) by (intros l t H; discriminate H). split; [now apply skip_stop|exact N].
    - destruct (read_line txt) as [[l er] t] eqn:E. destruct er as [e|].
      { exists [], [], txt. split; [reflexivity|]. split; [constructor|]. split; [auto|].
        assert (N : nonblank txt) by (intros l' t' H; congruence). split; [now apply skip_stop|exact N]. }
      destruct (is_nl l) eqn:Hn.
      2:{ exists [], [], txt. split; [reflexivity|]. split; [constructor|]. split; [auto|].
        assert (N : nonblank txt) by (intros l' t' H; congruence). split; [now apply skip_stop|exact N]. }
      pose proof (read_len _ _ _ E) as Lt. destruct (view_nl _ _ _ _ (read_view _ _ _ _ E) Hn) as (e & -> & Cl).
      destruct e.
      + destruct (IH t) as (bl & tail & R & Et & F & Ht & Sk & N); [lia|]. assert (I : inner_end LineFeed) by (now left).
        exists (LineFeed :: bl), tail, R. split; [rewrite Et; reflexivity|]. split; [constructor; assumption|]. split; [exact Ht|]. split; [|exact N]. now rewrite skip_end.
      + destruct (IH t) as (bl & tail & R & Et & F & Ht & Sk & N); [lia|]. assert (I : inner_end CrLf) by (now right).
        exists (CrLf :: bl), tail, R. split; [rewrite Et; reflexivity|]. split; [constructor; assumption|]. split; [exact Ht|]. split; [|exact N]. now rewrite skip_end.
      + destruct Cl as [[Cl|Cl]|(-> & Ee)]; try discriminate; cbn in Lt; lia.
      + destruct Cl as [[Cl|Cl]|(-> & Ee)]; try discriminate. exists [], [CR], []. split; [reflexivity|]. split; [constructor|]. split; [auto|].
        split; [|intros l' t' H; discriminate H]. unfold skipW. cbn [CsvText.skip_blank end_text app length]. rewrite Ee. reflexivity.
  Qed.

  (** ** a record *)
  Definition finish (fpr : nat) (x : (list bytes * option err) * bytes) : (option (list bytes) * option err) * (nat * bytes) :=
    let '((flds, e), rest) := x in
    match fpr with
    | O => ((Some flds, e), (length flds, rest))
    | _ => ((Some flds, match e with None => if Nat.eqb (length flds) fpr then None else Some ErrFieldCount | _ => e end), (fpr, rest))
    end.
  Lemma parse_end fpr txt : skipW txt = read_line [] -> e0 = EOF -> csv_parse (fpr, txt) = ((None, Some EOF), (fpr, [])).
  Proof. intros Sk E. unfold CsvText.csv_parse. fold (skipW txt). rewrite Sk. unfold CsvText.read_line. cbn. now rewrite E. Qed.
  Lemma parse_fields fpr txt R : skipW txt = read_line R -> R <> [] \/ e0 <> EOF -> csv_parse (fpr, txt) = finish fpr (fieldsW R [] None).
  Proof.
    intros Sk H. unfold CsvText.csv_parse. fold (skipW txt). rewrite Sk. destruct (read_line R) as [[l er] t] eqn:E.
    assert (V : view R = ((l, er), t)).
    { rewrite (read_view _ _ _ _ E). destruct er as [e|]; [|reflexivity]. apply read_err in E as (-> & _ & Q). destruct e0; try reflexivity. exfalso.
      destruct H as [H|H]; [apply H; now apply Q|congruence]. }
    rewrite (fields_W e0 _ R l er t) by (exact V || lia).
    assert (Ne : er <> Some EOF) by (intros ->; apply read_err in E as (<- & _ & Q); destruct H as [H|H]; [apply H; now apply Q|congruence]).
    unfold finish. destruct (fieldsW R [] None) as [[flds e] rest]. destruct er as [er|]; [destruct er; try reflexivity; congruence|reflexivity].
  Qed.
  Lemma blank_fields R l t : read_line R = ((l, None), t) -> is_nl l = true -> fieldsW R [] None = (([[]], None), t).
  Proof. intros E H. unfold CsvTextProofs.fieldsW. rewrite (read_view _ _ _ _ E). apply is_nl_true in H as [-> | ->]; reflexivity. Qed.
  Lemma fields_nil : e0 = EOF -> fieldsW [] [] None = (([[]], None), []).
  Proof. intros E. unfold CsvTextProofs.fieldsW. rewrite view_nil. unfold at_end. now rewrite E. Qed.
  Lemma parse_other fpr bl R : Forall inner_end bl -> (forall t, fieldsW R [] None <> (([[]], None), t)) ->
    csv_parse (fpr, blanks bl ++ R) = finish fpr (fieldsW R [] None).
  Proof.
    intros F N. apply parse_fields.
    - rewrite skip_ends by exact F. apply skip_stop. intros l t E. destruct (is_nl l) eqn:H; [|reflexivity]. exfalso. exact (N _ (blank_fields _ _ _ E H)).
    - destruct R; [|left; discriminate]. right. intros E. exact (N _ (fields_nil E)).
  Qed.
  (** a quoted first cell: the first line begins with a quote *)
  Lemma nonblank_first c R : c <> LF -> c <> CR -> nonblank (c :: R).
  Proof.
    intros N1 N2 l t E. apply read_view in E. destruct (view R) as [[l' er'] t'] eqn:V. rewrite (view_cons e0 c R l' er' t') in E by (assumption || congruence).
    injection E as <- _ _. destruct l'; [cbn; now apply Z.eqb_neq|reflexivity].
  Qed.
  Lemma row_first r e : row_ok r e -> exists c s, row_text r = c :: s /\ c <> LF.
  Proof.
    intros (N1 & N2 & F & _). destruct r as [|c r]; [congruence|]. inversion F as [|? ? Oc _]; subst.
    destruct c as [[|x s]|s].
    - destruct r as [|c2 r]; [congruence|]. rewrite row_text_cons. cbn. eexists _, _. split; [reflexivity|discriminate].
    - destruct Oc as (_ & _ & Nl). destruct r as [|c2 r]; [|rewrite row_text_cons]; cbn; (eexists _, _; split; [reflexivity|]; intros ->; apply Nl; now left).
    - destruct r as [|c2 r]; [|rewrite row_text_cons]; cbn; (eexists _, _; split; [reflexivity|discriminate]).
  Qed.
  Lemma row_nonblank r e t : closes e t -> row_ok r e -> nonblank (row_text r ++ end_text e ++ t).
  Proof.
    intros Cl O. destruct O as (N1 & N2 & F & Oe). destruct r as [|c r]; [congruence|]. inversion F as [|? ? Oc Fr]; subst. destruct c as [s|s].
    - destruct r as [|c2 r].
      + intros l t' E. cbn [row_text cell_text] in E. destruct Oc as (_ & _ & Nl). destruct (view_plain_end e0 s e t Nl Oe Cl) as (nl & V & Hn).
        apply read_view in E. rewrite V in E. injection E as <- _. destruct s as [|x s]; [congruence|]. destruct s as [|y s].
        * destruct Hn as [-> | ->]; cbn; [apply Z.eqb_neq; intros ->; apply Nl; now left|reflexivity].
        * destruct nl; reflexivity.
      + rewrite row_text_cons. cbn [cell_text]. intros l t' E. apply read_view in E. rewrite <- app_assoc in E. cbn [app] in E. set (R := row_text (c2 :: r) ++ end_text e ++ t) in *.
        destruct (view R) as [[l' er'] t''] eqn:V. destruct Oc as (_ & _ & Nl).
        change (s ++ COMMA :: R) with (s ++ [COMMA] ++ R) in E. rewrite app_assoc in E. rewrite (view_app e0 (s ++ [COMMA]) R l' er' t'') in E.
        * injection E as <- _ _. destruct s as [|x [|y s]]; cbn; destruct l'; reflexivity.
        * rewrite in_app_iff. intros [I|[I|[]]]; [tauto|discriminate].
        * intros _. rewrite last_last. discriminate.
        * exact V.
    - destruct r as [|c2 r]; [|rewrite row_text_cons]; cbn [row_text cell_text app]; apply nonblank_first; discriminate.
  Qed.
  Lemma parse_row fpr bl r e t : Forall inner_end bl -> closes e t -> row_ok r e ->
    csv_parse (fpr, blanks bl ++ row_text r ++ end_text e ++ t) = finish fpr ((row_value r, None), t).
  Proof.
    intros F Cl O. rewrite (parse_fields fpr _ (row_text r ++ end_text e ++ t)).
    - destruct O as (N1 & N2 & Fr & Oe). rewrite W_row by assumption. reflexivity.
    - rewrite skip_ends by exact F. apply skip_stop. now apply row_nonblank.
    - left. destruct (row_first r e O) as (c & s & -> & _). discriminate.
  Qed.
  Lemma parse_err fpr bl R flds e t : Forall inner_end bl -> fieldsW R [] None = ((flds, Some e), t) ->
    exists st, csv_parse (fpr, blanks bl ++ R) = ((Some flds, Some e), st).
  Proof.
    intros F H. rewrite parse_other by (exact F || (intros t' Q; congruence)). rewrite H. unfold finish. destruct fpr; eauto.
  Qed.
  Lemma parse_conv fpr txt rec st : csv_parse (fpr, txt) = ((Some rec, None), st) -> exists bl r e t, st = (length rec, t) /\
    txt = blanks bl ++ row_text r ++ end_text e ++ t /\ Forall inner_end bl /\ row_ok r e /\ closes e t /\ rec = row_value r /\ (fpr = 0%nat \/ fpr = length rec).
  Proof.
    intros H. destruct (skip_spec (length txt) txt (le_n _)) as (bl & tail & R & E & F & Ht & Sk & Nb).
    assert (D : (R = [] /\ e0 = EOF) \/ (R <> [] \/ e0 <> EOF)).
    { destruct R; [|right; left; discriminate]. destruct e0; auto; right; right; discriminate. }
    destruct D as [(-> & Ee)|D]; [rewrite (parse_end fpr txt Sk Ee) in H; discriminate|].
    destruct Ht as [-> |(_ & -> & Ee)]; [|exfalso; destruct D; congruence].
    rewrite (parse_fields fpr txt R Sk D) in H. destruct (fieldsW R [] None) as [[flds er] t] eqn:W.
    assert (Q : er = None /\ rec = flds /\ st = (length rec, t) /\ (fpr = 0%nat \/ fpr = length rec)).
    { unfold finish in H. destruct fpr as [|k]; [injection H as <- -> <-; auto|]. destruct er; [discriminate|].
      destruct (Nat.eqb_spec (length flds) (S k)) as [Q|]; [|discriminate]. injection H as <- <-. rewrite <- Q. auto. }
    destruct Q as (-> & -> & -> & Qf). destruct (proj1 (W_conv e0 (length R) R (le_n _)) _ _ _ W) as (r & e & -> & Nr & Fr & Oe & Cl & ->).
    exists bl, r, e, t. split; [reflexivity|]. split; [exact E|]. split; [exact F|]. split; [|auto].
    split; [exact Nr|]. split; [|split; assumption]. intros ->. cbn [row_text cell_text app] in *.
    destruct (view_end e0 e t Cl) as (nl & V & Hn). apply read_none in V.
    - specialize (Nb _ _ V). destruct Hn as [-> | ->]; discriminate.
    - intros Q. destruct e; try discriminate. cbn in Q. subst t. destruct Cl as [[Cl|Cl]|(_ & Cl)]; try discriminate. destruct D; auto.
  Qed.

  (** the errors *)
  Lemma fields_err : forall f line er t done cur flds e st, (length line + length t < f)%nat -> er = None \/ (er = Some e0 /\ e0 <> EOF) ->
    read_fields f line er t done cur = ((flds, Some e), st) -> (e = e0 /\ e0 <> EOF) \/ e = ErrBareQuote \/ e = ErrQuote.
  Proof.
    induction f as [|f IH]; intros line er t done cur flds e st L He H; [lia|].
    assert (Here : forall x, er = Some x -> x = e0 /\ e0 <> EOF) by (intros x Q; destruct He as [He|(He & Hn)]; [congruence|split; [congruence|exact Hn]]).
    destruct cur as [buf|].
    - cbn [CsvText.read_fields] in H. pose proof (cut_spec DQ line) as [_ E]. destruct (cut DQ line) as [p [r|]]; cbn [fst snd] in E.
      + assert (Lr : (length line = length p + S (length r))%nat) by (rewrite E at 1; rewrite app_length; reflexivity).
        assert (G : (if is_nl r then ((done ++ [buf ++ p], er), t) else ((done, Some ErrQuote), t)) = ((flds, Some e), st) -> (e = e0 /\ e0 <> EOF) \/ e = ErrBareQuote \/ e = ErrQuote).
        { destruct (is_nl r); intros Q; injection Q as _ Q _; [left; now apply Here|right; right; congruence]. }
        destruct r as [|c r]; [exact (G H)|]. cbn [length] in *.
        destruct c as [|c|c]; try exact (G H). repeat (destruct c as [c|c|]; try exact (G H)); (eapply IH; [|exact He|exact H]; lia).
      + destruct line as [|c line].
        * destruct er as [x|]; [injection H as _ H _; left; subst; now apply Here|]. injection H as _ H _. right. right. congruence.
        * destruct er as [x|]; [injection H as _ H _; left; subst; now apply Here|].
          destruct (read_line t) as [[l' er'] t'] eqn:V. pose proof (view_len e0 _ _ _ _ (read_view _ _ _ _ V)) as Lv.
          eapply IH; [| |exact H]; [cbn [length] in *; lia|]. destruct er' as [x|]; [|now left]. apply read_err in V as (-> & _ & _).
          destruct e0; try (right; split; [reflexivity|discriminate]). now left.
    - assert (G : match cut COMMA line with
          | (p, Some rest) => if has DQ p then ((done, Some ErrBareQuote), t) else read_fields f rest er t (done ++ [p]) None
          | (_, None) => if has DQ (chop_lf line) then ((done, Some ErrBareQuote), t) else ((done ++ [chop_lf line], er), t) end = ((flds, Some e), st) ->
          (e = e0 /\ e0 <> EOF) \/ e = ErrBareQuote \/ e = ErrQuote).
      { pose proof (cut_spec COMMA line) as [_ E]. destruct (cut COMMA line) as [p [r|]]; cbn [fst snd] in E.
        - assert (Lr : (length line = length p + S (length r))%nat) by (rewrite E at 1; rewrite app_length; reflexivity).
          destruct (has DQ p); [intros Q; injection Q as _ <- _; auto|]. intros Q. eapply IH; [|exact He|exact Q]. lia.
        - destruct (has DQ (chop_lf line)); intros Q; injection Q as _ Q _; [right; left; congruence|]. left. now apply Here. }
      destruct line as [|c line]; [exact (G H)|]. destruct (Z.eq_dec c DQ) as [->|N].
      + cbn [CsvText.read_fields] in H. change (match DQ with 34 => ?a | _ => ?b end) with a in H. eapply IH; [|exact He|exact H]. cbn [length] in L. lia.
      + rewrite plain_step in H by exact N. exact (G H).
  Qed.
  Lemma W_err R done cur flds e t : fieldsW R done cur = ((flds, Some e), t) -> (e = e0 /\ e0 <> EOF) \/ e = ErrBareQuote \/ e = ErrQuote.
  Proof.
    unfold CsvTextProofs.fieldsW. destruct (view R) as [[l er] t'] eqn:V. intros H. eapply fields_err; [|  |exact H]; [lia|].
    unfold CsvTextProofs.view in V. destruct (read_line R) as [[l' er'] t''] eqn:E. injection V as -> <- ->. destruct er' as [x|]; [|now left].
    apply read_err in E as (-> & _ & _). destruct e0; try (right; split; [reflexivity|discriminate]). now left.
  Qed.
  (** the three outcomes of a call *)
  Lemma parse_cases fpr txt : 
    (exists rec st, csv_parse (fpr, txt) = ((Some rec, None), st)) \/
    (e0 = EOF /\ csv_parse (fpr, txt) = ((None, Some EOF), (fpr, [])) /\ exists bl tail, txt = blanks bl ++ tail /\ Forall inner_end bl /\ (tail = [] \/ tail = [CR])) \/
    (exists rec e st, csv_parse (fpr, txt) = ((Some rec, Some e), st) /\ ((e = e0 /\ e0 <> EOF) \/ e = ErrBareQuote \/ e = ErrQuote \/ e = ErrFieldCount)).
  Proof.
    destruct (skip_spec (length txt) txt (le_n _)) as (bl & tail & R & E & F & Ht & Sk & Nb).
    assert (D : (R = [] /\ e0 = EOF) \/ (R <> [] \/ e0 <> EOF)).
    { destruct R; [|right; left; discriminate]. destruct e0; auto; right; right; discriminate. }
    destruct D as [(-> & Ee)|D].
    - right. left. split; [exact Ee|]. split; [now apply parse_end|]. exists bl, tail. rewrite app_nil_r in E. split; [exact E|]. split; [exact F|]. destruct Ht as [-> | (-> & _)]; auto.
    - rewrite (parse_fields fpr txt R Sk D). destruct (fieldsW R [] None) as [[flds [e|]] t] eqn:W.
      + right. right. apply W_err in W. exists flds, e. unfold finish. destruct fpr; eexists; (split; [reflexivity|]); tauto.
      + unfold finish. destruct fpr as [|k]; [left; eauto|]. destruct (Nat.eqb (length flds) (S k)); [left; eauto|]. right. right. exists flds, ErrFieldCount. eexists. split; [reflexivity|auto].
  Qed.
  Lemma parse_shorter fpr txt rec fpr' t : csv_parse (fpr, txt) = ((Some rec, None), (fpr', t)) -> (length t < length txt)%nat.
  Proof.
    intros H. apply parse_conv in H as (bl & r & e & t' & E & -> & _ & O & _). injection E as _ <-. destruct (row_first r e O) as (c & s & -> & _).
    rewrite !app_length. cbn [length]. rewrite ?app_length. lia.
  Qed.

  (** ** documents *)
  Definition blank_items (bl : list line_end) : list line_item := map (fun e => (None, e)) bl.
  Lemma blank_items_text bl : lines_text (blank_items bl) = blanks bl.
  Proof. induction bl as [|e bl IH]; [reflexivity|]. cbn. now f_equal. Qed.
  Lemma blank_items_ok bl : Forall inner_end bl -> lines_ok (blank_items bl).
  Proof. induction 1 as [|e bl I F IH]; constructor; [split; [exact Logic.I|exact I]|exact IH]. Qed.
  Lemma blank_items_rows bl : lines_rows (blank_items bl) = [].
  Proof. induction bl as [|e bl IH]; [reflexivity|exact IH]. Qed.
  Lemma lines_text_app d1 d2 : lines_text (d1 ++ d2) = lines_text d1 ++ lines_text d2.
  Proof. apply flat_map_app. Qed.
  Lemma lines_rows_app d1 d2 : lines_rows (d1 ++ d2) = lines_rows d1 ++ lines_rows d2.
  Proof. apply flat_map_app. Qed.

  Definition counts (fpr n : nat) : Prop := fpr = 0%nat \/ fpr = n.
  Lemma finish_ok fpr n r t : counts fpr n -> length r = n -> finish fpr ((row_value r, None), t) = ((Some (row_value r), None), (n, t)).
  Proof.
    intros C L. unfold finish. assert (Q : length (row_value r) = n) by (unfold row_value; now rewrite map_length). destruct fpr as [|k]; [now rewrite Q|].
    destruct C as [C|<-]; [discriminate|]. now rewrite Q, Nat.eqb_refl.
  Qed.
  Lemma doc_delivers n d t : lines_ok d -> Forall (fun r => length r = n) (lines_rows d) -> forall bl fpr, Forall inner_end bl -> counts fpr n ->
    exists bl' fpr', delivers csv_parse (fpr, blanks bl ++ lines_text d ++ t) (map row_value (lines_rows d)) (fpr', blanks bl' ++ t) /\
      Forall inner_end bl' /\ counts fpr' n /\ (lines_rows d <> [] -> fpr' = n).
  Proof.
    induction 1 as [|[it e] d (O & I) F IH]; intros L bl fpr Fb C.
    - exists bl, fpr. split; [constructor|]. split; [exact Fb|]. split; [exact C|]. intros Q. now destruct Q.
    - destruct it as [r|].
      + cbn [lines_rows flat_map fst app] in L. inversion L as [|? ? Lr L']; subst. change (flat_map _ d) with (lines_rows d) in L'. cbn in O. 
        destruct (IH L' [] (length r)) as (bl' & fpr' & D & Fb' & C' & Hf); [constructor|now right|].
        exists bl', fpr'. split; [|split; [exact Fb'|split; [exact C'|]]].
        * cbn [lines_rows flat_map fst app map]. eapply del_cons; [|exact D]. cbn [lines_text flat_map item_text fst snd]. rewrite <- !app_assoc.
          change (flat_map item_text d) with (lines_text d). unfold item_text at 1. cbn [fst snd]. rewrite <- !app_assoc. rewrite parse_row by (auto || (left; exact I)). cbn [blanks flat_map app]. now apply finish_ok.
        * intros _. destruct C' as [-> | ->]; [|reflexivity]. destruct (lines_rows d) eqn:Q; [|rewrite Hf by discriminate; reflexivity].
          cbn in D. inversion D; subst. reflexivity.
      + destruct (IH L (bl ++ [e]) fpr) as (bl' & fpr' & D & R); [apply Forall_app; split; [exact Fb|now constructor]|exact C|].
        exists bl', fpr'. split; [|exact R]. cbn [lines_text flat_map item_text fst snd app]. change (flat_map item_text d) with (lines_text d).
        unfold blanks in D. rewrite flat_map_app in D. fold (blanks bl) in D. cbn [flat_map] in D. rewrite app_nil_r, <- app_assoc in D. rewrite <- app_assoc. exact D.
  Qed.
  Lemma delivers_app {S T} (p : S -> (option (list T) * option err) * S) s rs s1 rs2 s2 : delivers p s rs s1 -> delivers p s1 rs2 s2 -> delivers p s (rs ++ rs2) s2.
  Proof. induction 1; [auto|]. intros D. cbn. econstructor; eauto. Qed.

  (** the rows that were delivered are the rows of lines *)
  Lemma delivers_lines rs : forall fpr txt fpr' t, delivers csv_parse (fpr, txt) rs (fpr', t) -> 
    exists d, txt = lines_text d ++ t /\ rs = map row_value (lines_rows d) /\ (lines_ok d \/ (t = [] /\ e0 = EOF /\ document d)) /\
      (exists n, counts fpr n /\ Forall (fun r => length r = n) rs /\ (rs <> [] -> fpr' = n)) /\ (rs = [] -> d = []).
  Proof.
    induction rs as [|rec rs IH]; intros fpr txt fpr' t D; inversion D as [|? ? s1 ? ? P D']; subst.
    - exists []. split; [reflexivity|]. split; [reflexivity|]. split; [left; constructor|]. split; [|reflexivity]. exists fpr'. split; [now right|]. split; [constructor|congruence].
    - apply parse_conv in P as (bl & r & e & t1 & -> & -> & Fb & O & Cl & -> & C).
      destruct (IH _ _ _ _ D') as (d & -> & -> & Ok & (n & Cn & Fn & Hn) & Hd).
      exists (blank_items bl ++ (Some r, e) :: d). split; [|split; [|split; [|split; [|discriminate]]]].
      + rewrite lines_text_app, blank_items_text. change (lines_text ((Some r, e) :: d)) with ((row_text r ++ end_text e) ++ lines_text d). now rewrite <- !app_assoc.
      + rewrite lines_rows_app, blank_items_rows. reflexivity.
      + assert (Bo := blank_items_ok bl Fb). destruct Cl as [I|(Q & Ee)].
        * assert (Hd2 : item_ok (Some r, e) /\ inner_end e) by (split; [exact O|exact I]).
          destruct Ok as [Ok|(-> & Ee & d1 & d2 & -> & Ok1 & Ok2)].
          -- left. apply Forall_app. split; [exact Bo|]. constructor; assumption.
          -- right. split; [reflexivity|]. split; [exact Ee|]. exists (blank_items bl ++ (Some r, e) :: d1), d2. split; [rewrite <- app_assoc; reflexivity|].
             split; [apply Forall_app; split; [exact Bo|constructor; assumption]|exact Ok2].
        * apply app_eq_nil in Q as (Q1 & ->). right. split; [reflexivity|]. split; [exact Ee|].
          assert (d = []).
          { apply Hd. rewrite Q1 in D'. cbn [app] in D'. inversion D' as [|? ? ? ? ? P2 _]; [reflexivity|]. exfalso.
            rewrite (parse_end _ [] (skip_stop [] ltac:(intros ? ? X; discriminate X)) Ee) in P2. discriminate. }
          subst d. exists (blank_items bl), [(Some r, e)]. split; [reflexivity|]. split; [exact Bo|]. right. exists (Some r, e). split; [reflexivity|exact O].
      + assert (Q : n = length (row_value r)).
        { destruct Cn as [Cn|Cn]; [|now symmetry]. exfalso. destruct O as (O & _). destruct r; [congruence|discriminate]. }
        exists n. subst n. split; [destruct C as [-> | ->]; [now left|now right]|]. split; [constructor; [reflexivity|exact Fn]|]. intros _.
        destruct (lines_rows d) eqn:Ed; [cbn in D'; inversion D'; reflexivity|]. apply Hn. discriminate.
  Qed.
  (** every text is read to an end *)
  Lemma parse_total : forall k txt fpr, (length txt <= k)%nat -> exists rs fpr' t r e s3, delivers csv_parse (fpr, txt) rs (fpr', t) /\ csv_parse (fpr', t) = ((r, Some e), s3).
  Proof.
    induction k as [|k IH]; intros txt fpr L; destruct (parse_cases fpr txt) as [(rec & (fpr1 & t1) & P)|[(_ & P & _)|(rec & e & st & P & _)]].
    - apply parse_shorter in P. lia.
    - exists [], fpr, txt. eexists _, _, _. split; [constructor|exact P].
    - exists [], fpr, txt. eexists _, _, _. split; [constructor|exact P].
    - pose proof (parse_shorter _ _ _ _ _ P) as Q. destruct (IH t1 fpr1 ltac:(lia)) as (rs & fpr' & t & r & e & s3 & D & H). exists (rec :: rs), fpr', t, r, e, s3. split; [econstructor; eauto|exact H].
    - exists [], fpr, txt. eexists _, _, _. split; [constructor|exact P].
    - exists [], fpr, txt. eexists _, _, _. split; [constructor|exact P].
  Qed.
End Reader.
