(** Property C103: OfCSV on texts. *)
From Coq Require Import List ZArith Bool Lia.
From Verif Require Import Base Iter IterSpec IterProofs SliceMem Csv CsvSpec PropsCsv CsvText CsvTextSpec CsvTextProofs CsvTextProofs2.
Import ListNotations.
Open Scope Z_scope.

Lemma result_end txt rs s2 s3 r : delivers (csv_parse EOF) (0%nat, txt) rs s2 -> csv_parse EOF s2 = ((r, Some EOF), s3) -> csv_result EOF txt rs EOI.
Proof. intros D P m. exact (C88_rows (csv_parse EOF) m _ rs s2 s3 r D P). Qed.
Lemma result_err e0 txt rs s2 s3 r e : delivers (csv_parse e0) (0%nat, txt) rs s2 -> csv_parse e0 s2 = ((r, Some e), s3) -> e <> EOF -> csv_result e0 txt rs e.
Proof. intros D P N m. exact (C88_error (csv_parse e0) m _ rs s2 s3 r e D P N). Qed.

Lemma rows_det {St T} (mem_of : St -> mem T) (f : stepfn St slice) s hs1 rs1 t1 : emits_rows mem_of f s hs1 rs1 t1 -> forall e1 hs2 rs2 t2 e2,
  stuck f t1 e1 -> emits_rows mem_of f s hs2 rs2 t2 -> stuck f t2 e2 -> rs1 = rs2 /\ e1 = e2.
Proof.
  induction 1 as [s|s h r s1 hs rs s2 Rt C Em IH]; intros e1 hs2 rs2 t2 e2 S1 E2 S2.
  - inversion S1 as [? ? ? R1 _]; subst. inversion E2 as [|? ? ? ? ? ? ? R2 _ _]; subst.
    + inversion S2 as [? ? ? R2 _]; subst. destruct (returns_det _ _ _ _ _ _ R1 R2) as (Q & _). split; [reflexivity|congruence].
    + destruct (returns_det _ _ _ _ _ _ R1 R2) as (Q & _). discriminate Q.
  - inversion E2 as [|? ? ? ? ? ? ? R2 C2 Em2]; subst.
    + inversion S2 as [? ? ? R2 _]; subst. destruct (returns_det _ _ _ _ _ _ Rt R2) as (Q & _). discriminate Q.
    + destruct (returns_det _ _ _ _ _ _ Rt R2) as (Q & <-). destruct (IH _ _ _ _ _ S1 Em2 S2) as (-> & ->). split; congruence.
Qed.

Lemma rect_counts {A} (rs : list (list A)) : rectangular rs -> exists n, Forall (fun r => length r = n) rs.
Proof.
  intros R. destruct rs as [|r rs]; [exists 0%nat; constructor|]. exists (length r). apply Forall_forall. intros x I. apply R; [exact I|now left].
Qed.
Lemma counts_rect {A} (rs : list (list A)) n : Forall (fun r => length r = n) rs -> rectangular rs.
Proof. intros F r r' I I'. rewrite Forall_forall in F. rewrite (F _ I), (F _ I'). reflexivity. Qed.

(** ** C103. Reading CSV texts *)
(** What a text gives is determined by the text and the error of the source. *)
Theorem C103_unique e0 txt rs e rs' e' : csv_result e0 txt rs e -> csv_result e0 txt rs' e' -> rs = rs' /\ e = e'.
Proof. intros A B. destruct (A []) as (h1 & t1 & E1 & S1), (B []) as (h2 & t2 & E2 & S2). eapply rows_det; eassumption. Qed.

(** The rows of a document come in order, then the end. *)
Theorem C103_document d : document d -> rectangular (lines_rows d) -> csv_result EOF (lines_text d) (map row_value (lines_rows d)) EOI.
Proof.
  intros (d1 & d2 & -> & O1 & O2) R. destruct (rect_counts _ R) as (n & F). rewrite lines_rows_app, Forall_app in F. destruct F as (F1 & F2).
  destruct (doc_delivers EOF n d1 (lines_text d2) O1 F1 [] 0%nat (Forall_nil _) (or_introl eq_refl)) as (bl & fpr & D & Fb & C & _).
  cbn [blanks flat_map app] in D. rewrite lines_text_app, lines_rows_app, map_app.
  assert (E : forall fpr bl tail, Forall inner_end bl -> tail = [] \/ tail = [CR] -> csv_parse EOF (fpr, blanks bl ++ tail) = ((None, Some EOF), (fpr, []))).
  { intros k b tail Hb Ht. apply parse_end; [|reflexivity]. rewrite skip_ends by exact Hb. destruct Ht as [-> | ->]; reflexivity. }
  destruct O2 as [-> |([it e] & -> & Oi)].
  - cbn [lines_rows flat_map map]. rewrite (app_nil_r (map _ _)). eapply result_end; [exact D|]. apply E; auto.
  - destruct it as [r|].
    + cbn in F2. inversion F2 as [|? ? Lr _]; subst. cbn [lines_rows flat_map fst map app]. cbn in Oi.
      assert (P : csv_parse EOF (fpr, blanks bl ++ lines_text [(Some r, e)]) = ((Some (row_value r), None), (length r, []))).
      { cbn [lines_text flat_map]. rewrite app_nil_r. unfold item_text. cbn [fst snd]. rewrite <- (app_nil_r (end_text e)). rewrite parse_row; [now apply finish_ok|exact Fb|right; auto|exact Oi]. }
      eapply result_end; [eapply delivers_app; [exact D|]; econstructor; [exact P|constructor]|]. apply (E _ [] []); auto.
    + cbn [lines_rows flat_map fst map app]. rewrite app_nil_r. cbn [lines_text flat_map item_text fst snd app] in *. unfold item_text in *. cbn [fst snd app] in *. rewrite app_nil_r in *.
      eapply result_end; [exact D|]. destruct e; cbn [end_text] in *.
      * replace (blanks bl ++ [LF]) with (blanks (bl ++ [LineFeed]) ++ []) by (rewrite app_nil_r; unfold blanks; rewrite flat_map_app; reflexivity).
        apply E; [apply Forall_app; split; [exact Fb|]; constructor; [now left|constructor]|auto].
      * replace (blanks bl ++ [CR; LF]) with (blanks (bl ++ [CrLf]) ++ []) by (rewrite app_nil_r; unfold blanks; rewrite flat_map_app; reflexivity).
        apply E; [apply Forall_app; split; [exact Fb|]; constructor; [now right|constructor]|auto].
      * apply E; auto.
      * apply E; auto.
Qed.

(** Every text, cut off anywhere by any error of the source: some rows, all with the same number of fields, and then an end or an error
    for ever. The end comes exactly after a whole document; before an error there are the rows of complete lines. *)
Theorem C103_total e0 txt : exists rs e, csv_result e0 txt rs e /\ rectangular rs /\
  ((e = EOI /\ e0 = EOF /\ exists d, document d /\ txt = lines_text d /\ rs = map row_value (lines_rows d)) \/
   (((e = e0 /\ e0 <> EOF) \/ e = ErrBareQuote \/ e = ErrQuote \/ e = ErrFieldCount) /\
    exists d t, lines_ok d /\ txt = lines_text d ++ t /\ rs = map row_value (lines_rows d))).
Proof.
  destruct (parse_total e0 (length txt) txt 0%nat (le_n _)) as (rs & fpr & t & r & e & s3 & D & P).
  destruct (delivers_lines e0 rs _ _ _ _ D) as (d & Et & -> & Ok & (n & _ & Fn & _) & _).
  assert (Re := counts_rect _ _ Fn). exists (map row_value (lines_rows d)).
  destruct (parse_cases e0 fpr t) as [(rec & st & P2)|[(Ee & P2 & bl & tail & Eb & Fb & Ht)|(rec & e2 & st & P2 & He)]].
  - rewrite P2 in P. discriminate.
  - exists EOI. split; [subst e0; eapply result_end; [exact D|exact P2]|]. split; [exact Re|]. left. split; [reflexivity|]. split; [exact Ee|].
    exists (d ++ blank_items bl ++ match tail with [] => [] | _ => [(None, LoneCr)] end). split; [|split].
    + destruct Ok as [Ok|(-> & _ & Dd)].
      * exists (d ++ blank_items bl), (match tail with [] => [] | _ => [(None, LoneCr)] end). split; [now rewrite app_assoc|].
        split; [apply Forall_app; split; [exact Ok|now apply blank_items_ok]|]. destruct Ht as [-> | ->]; [now left|]. right. exists (None, LoneCr). split; [reflexivity|exact Logic.I].
      * symmetry in Eb. apply app_eq_nil in Eb as (Eb & ->). rewrite app_nil_r.
        assert (bl = []) as -> by (destruct bl as [|x bl]; [reflexivity|]; inversion Fb as [|? ? [-> | ->] _]; subst; discriminate Eb). cbn. rewrite app_nil_r. exact Dd.
    + rewrite Et, Eb, !lines_text_app, blank_items_text. do 2 f_equal. destruct Ht as [-> | ->]; reflexivity.
    + rewrite !lines_rows_app, blank_items_rows. destruct tail; cbn; now rewrite app_nil_r.
  - exists e2. clear P.
    assert (Ne : e2 <> EOF) by (intros ->; destruct He as [(He & Hn)|[He|[He|He]]]; [congruence|discriminate He|discriminate He|discriminate He]).
    split; [eapply result_err; eassumption|]. split; [exact Re|]. right. split; [exact He|].
    destruct Ok as [Ok|(-> & Ee & _)]; [exists d, t; auto|]. exfalso.
    rewrite (parse_end e0 fpr []) in P2; [discriminate|apply skip_stop; intros ? ? X; discriminate X|exact Ee].
Qed.

(** The texts that are read without an error are exactly the rectangular documents. *)
Theorem C103_accepted txt rs : csv_result EOF txt rs EOI <->
  exists d, document d /\ rectangular (lines_rows d) /\ txt = lines_text d /\ rs = map row_value (lines_rows d).
Proof.
  split.
  - intros R. destruct (C103_total EOF txt) as (rs' & e & R' & Re & [(_ & _ & d & Dd & Et & Er)|(He & _)]); destruct (C103_unique _ _ _ _ _ _ R R') as (-> & E).
    + exists d. split; [exact Dd|]. split; [|auto]. intros r r' I I'. rewrite Er in Re. specialize (Re (row_value r) (row_value r') (in_map _ _ _ I) (in_map _ _ _ I')).
      unfold row_value in Re. now rewrite !map_length in Re.
    + exfalso. subst e. destruct He as [(_ & He)|[He|[He|He]]]; [congruence|discriminate He|discriminate He|discriminate He].
  - intros (d & Dd & Re & -> & ->). now apply C103_document.
Qed.

(** The four kinds of errors, each after the rows of the complete lines before. *)
Lemma rows_before e0 d : lines_ok d -> rectangular (lines_rows d) -> forall t, exists bl fpr, delivers (csv_parse e0) (0%nat, lines_text d ++ t) (map row_value (lines_rows d)) (fpr, blanks bl ++ t) /\
  Forall inner_end bl /\ (fpr = 0%nat \/ forall r, In r (lines_rows d) -> fpr = length r) /\ (lines_rows d <> [] -> forall r, In r (lines_rows d) -> fpr = length r).
Proof.
  intros O R t. destruct (rect_counts _ R) as (n & F). destruct (doc_delivers e0 n d t O F [] 0%nat (Forall_nil _) (or_introl eq_refl)) as (bl & fpr & D & Fb & C & Hn).
  exists bl, fpr. split; [exact D|]. split; [exact Fb|]. rewrite Forall_forall in F. split.
  - destruct C as [C|C]; [now left|right]. intros r I. rewrite C, (F _ I). reflexivity.
  - intros N r I. rewrite (F _ I). now apply Hn.
Qed.
Lemma err_after e0 d R flds e t : lines_ok d -> rectangular (lines_rows d) -> fieldsW e0 R [] None = ((flds, Some e), t) -> e <> EOF ->
  csv_result e0 (lines_text d ++ R) (map row_value (lines_rows d)) e.
Proof.
  intros O Re W N. destruct (rows_before e0 d O Re R) as (bl & fpr & D & Fb & _). destruct (parse_err e0 fpr bl R flds e t Fb W) as (st & P). eapply result_err; eassumption.
Qed.
(** a row with another number of cells *)
Theorem C103_ragged e0 d r e t r0 : lines_ok d -> rectangular (lines_rows d) -> In r0 (lines_rows d) -> row_ok r e -> inner_end e -> length r <> length r0 ->
  csv_result e0 (lines_text d ++ row_text r ++ end_text e ++ t) (map row_value (lines_rows d)) ErrFieldCount.
Proof.
  intros O Re I Or Ie N. destruct (rows_before e0 d O Re (row_text r ++ end_text e ++ t)) as (bl & fpr & D & Fb & _ & Hn).
  assert (Nr : lines_rows d <> []) by (intros Q; rewrite Q in I; exact I). pose proof (Hn Nr r0 I) as Q.
  eapply result_err; [exact D| |discriminate]. rewrite parse_row by (exact Fb || exact Or || (left; exact Ie)). unfold finish.
  assert (r0 <> []).
  { intros ->. clear -O I. induction O as [|[it e] d (A & _) _ IH]; [exact I|]. destruct it as [r|]; cbn in I; [|exact (IH I)]. destruct I as [->|I]; [|exact (IH I)]. destruct A as (A & _). congruence. }
  destruct fpr as [|k]; [destruct r0; [congruence|discriminate]|].
  replace (Nat.eqb (length (row_value r)) (S k)) with false; [reflexivity|]. symmetry. apply Nat.eqb_neq. unfold row_value. rewrite map_length. congruence.
Qed.
(** a quote within a plain cell *)
Theorem C103_bare_quote e0 d r s t : lines_ok d -> rectangular (lines_rows d) -> Forall cell_ok r -> s <> [] -> cell_ok (Plain s) ->
  csv_result e0 (lines_text d ++ cells_text r ++ s ++ DQ :: t) (map row_value (lines_rows d)) ErrBareQuote.
Proof.
  intros O Re F N (A & B & C). assert (W : exists flds t', fieldsW e0 (cells_text r ++ s ++ DQ :: t) [] None = ((flds, Some ErrBareQuote), t')).
  { rewrite W_cells by exact F. unfold fieldsW. destruct (view e0 t) as [[l er] t'] eqn:V.
    change (s ++ DQ :: t) with (s ++ [DQ] ++ t). rewrite app_assoc. rewrite (view_app e0 (s ++ [DQ]) t l er t').
    - rewrite plain_step.
      + pose proof (cut_spec COMMA ((s ++ [DQ]) ++ l)) as [_ E]. destruct (cut COMMA ((s ++ [DQ]) ++ l)) as [p [q|]] eqn:Cu; cbn [fst snd] in E.
        * assert (I : In DQ p).
          { destruct (cut_spec COMMA l) as [_ El]. destruct (cut COMMA l) as [p' q'] eqn:Cl. cbn [fst snd] in El.
            assert (p = (s ++ [DQ]) ++ p').
            { assert (G : forall u v, ~ In COMMA u -> cut COMMA (u ++ v) = (u ++ fst (cut COMMA v), snd (cut COMMA v))).
              { clear. induction u as [|x u IH]; intros v Nu; [cbn; now destruct (cut COMMA v)|]. cbn [app cut]. destruct (Z.eqb_spec x COMMA); [exfalso; apply Nu; now left|]. rewrite IH by (intros I; apply Nu; now right). reflexivity. }
              rewrite G in Cu by (rewrite in_app_iff; intros [I|[I|[]]]; [tauto|discriminate]). rewrite Cl in Cu. cbn in Cu. congruence. }
            subst p. apply in_or_app. left. apply in_or_app. right. now left. }
          destruct (has DQ p) eqn:H; [eauto|]. apply has_false in H. tauto.
        * assert (I : In DQ (chop_lf ((s ++ [DQ]) ++ l))).
          { clear. rewrite <- app_assoc. cbn [app]. induction s as [|x s IH]; cbn [app].
            - destruct l as [|y l]; [now left|]. change (chop_lf (DQ :: y :: l)) with (DQ :: chop_lf (y :: l)). now left.
            - destruct (s ++ DQ :: l) as [|y k] eqn:Q; [destruct s; discriminate|]. change (chop_lf (x :: y :: k)) with (x :: chop_lf (y :: k)). now right. }
          destruct (has DQ (chop_lf ((s ++ [DQ]) ++ l))) eqn:H; [eauto|]. apply has_false in H. tauto.
      + destruct s as [|x s]; [congruence|]. cbn. intros ->. apply B. now left.
    - rewrite in_app_iff. intros [I|[I|[]]]; [tauto|discriminate].
    - intros _. rewrite last_last. discriminate.
    - exact V. }
  destruct W as (flds & t' & W). eapply err_after; [exact O|exact Re|exact W|discriminate].
Qed.
(** something other than a quote, a comma or a line end after the closing quote *)
Theorem C103_after_quote e0 d r s c t : lines_ok d -> rectangular (lines_rows d) -> Forall cell_ok r -> ~ In c [DQ; COMMA; LF; CR] ->
  csv_result e0 (lines_text d ++ cells_text r ++ cell_text (Quoted s) ++ c :: t) (map row_value (lines_rows d)) ErrQuote.
Proof.
  intros O Re F N. assert (W : exists flds t', fieldsW e0 (cells_text r ++ cell_text (Quoted s) ++ c :: t) [] None = ((flds, Some ErrQuote), t')).
  { rewrite W_cells by exact F. cbn [cell_text app]. rewrite W_open, <- app_assoc. cbn [app]. rewrite W_quoted. destruct (view e0 t) as [[l er] t'] eqn:V.
    rewrite (W_quote_other e0 (c :: t) _ _ (c :: l) er t').
    - replace (is_nl (c :: l)) with false; [eauto|]. destruct l; [|reflexivity]. symmetry. apply Z.eqb_neq. intros ->. apply N. cbn. auto.
    - apply view_cons; [intros ->; apply N; cbn; auto|intros ->; exfalso; apply N; cbn; auto|exact V].
    - split; intros ->; apply N; cbn; auto. }
  destruct W as (flds & t' & W). eapply err_after; [exact O|exact Re|exact W|discriminate].
Qed.
(** a quoted cell that is not closed before the end of the document *)
Theorem C103_unterminated d r s : lines_ok d -> rectangular (lines_rows d) -> Forall cell_ok r ->
  csv_result EOF (lines_text d ++ cells_text r ++ DQ :: double_quotes s) (map row_value (lines_rows d)) ErrQuote.
Proof.
  intros O Re F. assert (W : exists flds t', fieldsW EOF (cells_text r ++ DQ :: double_quotes s) [] None = ((flds, Some ErrQuote), t')).
  { rewrite W_cells by exact F. rewrite W_open. generalize ([] ++ row_value r) as dn. generalize (@nil Z) as buf. revert s.
    assert (G : forall n s, (length s <= n)%nat -> forall buf dn, exists flds t', fieldsW EOF (double_quotes s) dn (Some buf) = ((flds, Some ErrQuote), t')).
    { induction n as [|n IH]; intros s L buf dn.
      - destruct s; [|cbn in L; lia]. eexists _, _. reflexivity.
      - destruct s as [|x s]; [eexists _, _; reflexivity|]. cbn [length] in L. destruct (Z.eq_dec x DQ) as [->|N1].
        + change (double_quotes (DQ :: s)) with (DQ :: DQ :: double_quotes s). rewrite W_quote_quote. apply IH. lia.
        + rewrite dq_plain by exact N1. destruct (Z.eq_dec x LF) as [->|N2]; [rewrite W_lf; apply IH; lia|].
          destruct (Z.eq_dec x CR) as [->|N3].
          * destruct s as [|y s]; [eexists _, _; reflexivity|]. destruct (Z.eq_dec y LF) as [->|N4].
            -- rewrite dq_plain by discriminate. rewrite W_crlf. apply IH. cbn [length] in L. lia.
            -- rewrite W_char; [apply IH; lia|discriminate|discriminate| |auto]. intros _. destruct (Z.eq_dec y DQ) as [->|]; [discriminate|]. rewrite dq_plain by auto. exact N4.
          * rewrite W_char; [apply IH; lia|exact N1|exact N2|congruence|auto]. }
    intros s buf dn. now apply (G (length s)). }
  destruct W as (flds & t' & W). eapply err_after; [exact O|exact Re|exact W|discriminate].
Qed.
(** an error of the source between two lines *)
Theorem C103_source_error e0 d : e0 <> EOF -> lines_ok d -> rectangular (lines_rows d) -> csv_result e0 (lines_text d) (map row_value (lines_rows d)) e0.
Proof.
  intros N O Re. rewrite <- (app_nil_r (lines_text d)). apply (err_after e0 d [] [[]] e0 []); [exact O|exact Re| |exact N].
  unfold fieldsW. rewrite view_nil. unfold at_end. destruct e0; try reflexivity; congruence.
Qed.
(** The end is never reported for a source that failed. *)
Theorem C103_no_silent_truncation e0 txt rs e : e0 <> EOF -> e0 <> EOI -> csv_result e0 txt rs e -> e <> EOI /\ e <> EOF.
Proof.
  intros N1 N2 R. destruct (C103_total e0 txt) as (rs' & e' & R' & _ & [(_ & Q & _)|(He & _)]); [congruence|]. destruct (C103_unique _ _ _ _ _ _ R R') as (_ & ->).
  destruct He as [(-> & _)|[-> | [-> | ->]]]; split; congruence || discriminate.
Qed.

(** Every table of at least one column can be written and is read back, up to CR LF, which becomes LF. *)
Theorem C103_round_trip table : rectangular table -> ~ In [] table -> csv_result EOF (lines_text (all_quoted table)) (map (map unix) table) EOI.
Proof.
  intros Re N. assert (Er : lines_rows (all_quoted table) = map (map Quoted) table).
  { clear. induction table as [|r t IH]; [reflexivity|]. cbn. now f_equal. }
  replace (map (map unix) table) with (map row_value (lines_rows (all_quoted table))).
  - apply C103_document.
    + exists (all_quoted table), []. split; [now rewrite app_nil_r|]. split; [|now left]. apply Forall_forall. intros i I. apply in_map_iff in I as (r & <- & I). split; [|now left].
      cbn. split; [intros Q; destruct r; [tauto|discriminate]|]. split; [destruct r; discriminate|]. split.
      * apply Forall_forall. intros c Ic. apply in_map_iff in Ic as (s & <- & _). exact Logic.I.
      * cbn [end_ok]. destruct r as [|x r] using rev_ind; [exact Logic.I|]. rewrite map_app. cbn [map]. rewrite last_last. exact Logic.I.
    + rewrite Er. intros r r' I I'. apply in_map_iff in I as (x & <- & I). apply in_map_iff in I' as (y & <- & I'). rewrite !map_length. now apply Re.
  - rewrite Er, map_map. apply map_ext. intros r. unfold row_value. rewrite map_map. reflexivity.
Qed.
Lemma unix_id s : (forall a b, s <> a ++ CR :: LF :: b) -> unix s = s.
Proof.
  induction s as [|x s IH]; intros N; [reflexivity|]. rewrite unix_cons; [f_equal; apply IH|].
  - intros a b ->. apply (N (x :: a) b). reflexivity.
  - intros ->. destruct s as [|y s]; [exact Logic.I|]. intros ->. apply (N [] s). reflexivity.
Qed.
Theorem C103_round_trip_exact table : rectangular table -> ~ In [] table -> (forall r s a b, In r table -> In s r -> s <> a ++ CR :: LF :: b) ->
  csv_result EOF (lines_text (all_quoted table)) table EOI.
Proof.
  intros Re N C. replace table with (map (map unix) table) at 2; [now apply C103_round_trip|].
  rewrite <- (map_id table) at 2. apply map_ext_in. intros r Ir. rewrite <- (map_id r) at 2. apply map_ext_in. intros s Is. apply unix_id. intros a b. exact (C r s a b Ir Is).
Qed.
(** Finding: CR LF within quotes is not kept. *)
Theorem C103_crlf_refuted : exists table, rectangular table /\ ~ In [] table /\ ~ csv_result EOF (lines_text (all_quoted table)) table EOI.
Proof.
  exists [[[97; CR; LF; 98]]]. assert (Re : rectangular [[[97; CR; LF; 98]]]) by (intros r r' [<-|[]] [<-|[]]; reflexivity).
  assert (N : ~ In [] [[[97; CR; LF; 98]]]) by (intros [Q|[]]; discriminate). split; [exact Re|]. split; [exact N|].
  intros R. destruct (C103_unique _ _ _ _ _ _ R (C103_round_trip _ Re N)) as (Q & _). discriminate Q.
Qed.
(** Finding: a row whose only cell is empty and written without quotes is not delivered. *)
Theorem C103_empty_row_lost d1 e d2 : document (d1 ++ (None, e) :: d2) -> rectangular (lines_rows (d1 ++ d2)) ->
  lines_text (d1 ++ (None, e) :: d2) = lines_text d1 ++ row_text [Plain []] ++ end_text e ++ lines_text d2 /\
  csv_result EOF (lines_text d1 ++ row_text [Plain []] ++ end_text e ++ lines_text d2) (map row_value (lines_rows d1 ++ lines_rows d2)) EOI.
Proof.
  intros D R. assert (Q : lines_text (d1 ++ (None, e) :: d2) = lines_text d1 ++ row_text [Plain []] ++ end_text e ++ lines_text d2) by (rewrite lines_text_app; reflexivity).
  split; [exact Q|]. rewrite <- Q. replace (lines_rows d1 ++ lines_rows d2) with (lines_rows (d1 ++ (None, e) :: d2)) by (rewrite lines_rows_app; reflexivity).
  apply C103_document; [exact D|]. rewrite lines_rows_app. rewrite lines_rows_app in R. exact R.
Qed.

(** a,"b""c" CR LF / empty line / ,"x LF y" without a last line feed *)
Example C103_nonvacuous :
  let d := [(Some [Plain [97]; Quoted [98; 34; 99]], CrLf); (None, LineFeed); (Some [Plain []; Quoted [120; 10; 121]], Nothing)] in
  document d /\ rectangular (lines_rows d) /\ lines_text d = [97; 44; 34; 98; 34; 34; 99; 34; 13; 10; 10; 44; 34; 120; 10; 121; 34] /\
  map row_value (lines_rows d) = [[[97]; [98; 34; 99]]; [[]; [120; 10; 121]]] /\
  csv_parse EOF (0%nat, lines_text d) = ((Some [[97]; [98; 34; 99]], None), (2%nat, [10; 44; 34; 120; 10; 121; 34])).
Proof.
  assert (O : forall s, ~ In COMMA s -> ~ In DQ s -> ~ In LF s -> cell_ok (Plain s)) by (intros; cbn; auto).
  split; [|split; [|split; [|split]]]; try reflexivity.
  - exists [(Some [Plain [97]; Quoted [98; 34; 99]], CrLf); (None, LineFeed)], [(Some [Plain []; Quoted [120; 10; 121]], Nothing)].
    split; [reflexivity|]. split.
    + constructor; [|constructor; [|constructor]].
      * split; [|now right]. split; [discriminate|]. split; [discriminate|]. split; [|exact Logic.I].
        constructor; [apply O; intros [Q|[]]; discriminate|constructor; [exact Logic.I|constructor]].
      * split; [exact Logic.I|now left].
    + right. eexists. split; [reflexivity|]. split; [discriminate|]. split; [discriminate|]. split; [|exact Logic.I].
      constructor; [apply O; intros []|constructor; [exact Logic.I|constructor]].
  - intros r r' I I'. cbn in I, I'. destruct I as [<-|[<-|[]]], I' as [<-|[<-|[]]]; reflexivity.
Qed.
