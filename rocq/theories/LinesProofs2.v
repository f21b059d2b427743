(** Proofs about logs of lines, and the bytes of lines. *)
From Verif Require Import Base Iter IterSpec IterProofs Readers ReaderSpec ReaderProofs Writer WriterProofs JsonSpec JsonFaultSpec JsonFaultProofs3 LinesSpec LinesProofs.
From Coq Require Import ZifyBool.
Open Scope Z_scope.

Lemma utf8_app a b : utf8 (a ++ b) = utf8 a ++ utf8 b.
Proof. unfold utf8. apply flat_map_app. Qed.
Lemma utf8_accepts rs : Forall scalar rs -> Forall2 accepts (map encode rs) rs.
Proof. induction 1; cbn; constructor; auto. apply encode_accepts; auto. Qed.
Lemma utf8_concat rs : concat (map encode rs) = utf8 rs.
Proof. unfold utf8. rewrite flat_map_concat_map. reflexivity. Qed.

Lemma lines_whole {S} (rd : reader S) s text e : Forall scalar text -> holds rd s (utf8 text) e ->
  yields (next (lines_gen (runes_gen rd))) (ofIter (lines_init (runes_init s))) (out_lines (complete_lines text) (incomplete_line text) e) (translate e).
Proof.
  intros F H. rewrite <- utf8_concat, <- (app_nil_r (concat _)) in H.
  destruct (runes_emits rd _ _ [] s e (Some EOI) (utf8_accepts _ F) H) as (e1 & s' & E & H').
  destruct (runes_end rd s' e e1 H') as (s2 & Fl).
  pose proof (lines_any (runes_gen rd) text _ _ _ _ E Fl) as Y.
  assert (TT : translate (translate e) = translate e) by (destruct e; reflexivity).
  rewrite TT in Y. unfold out_lines in *. rewrite TT in Y. exact Y.
Qed.

Lemma lines_torn {S} (rd : reader S) s text rest e : Forall scalar text -> Forall byte rest -> rest <> [] ->
  (forall p r rest', accepts p r -> rest <> p ++ rest') -> holds rd s (utf8 text ++ rest) e ->
  exists e', yields (next (lines_gen (runes_gen rd))) (ofIter (lines_init (runes_init s))) (out_lines (complete_lines text) (incomplete_line text) e') (translate e') /\
    (e' = InvalidUTF8 \/ (e' = e /\ e <> EOF /\ length rest = 1%nat)).
Proof.
  intros F B Ne No Hd. rewrite <- utf8_concat in Hd.
  destruct (runes_emits rd _ _ rest s e (Some EOI) (utf8_accepts _ F) Hd) as (e1 & s' & E & H').
  assert (Fr : front rest = None).
  { destruct (front rest) as [[r bs']|] eqn:Fr; auto. destruct (front_sound _ _ _ B Fr) as (p & Eq & A). exfalso. eapply No; eauto. }
  destruct (runes_bad rd s' rest e e1 H' Ne Fr) as (e' & st' & Fl & Or). exists e'. split; auto.
  exact (lines_any (runes_gen rd) text _ _ _ _ E Fl).
Qed.

Theorem lines_bytes {S} (rd : reader S) s bs e : Forall byte bs -> holds rd s bs e ->
  exists ps text rest e', bs = concat ps ++ rest /\ Forall2 accepts ps text /\ (forall p r rest', accepts p r -> rest <> p ++ rest') /\
    yields (next (lines_gen (runes_gen rd))) (ofIter (lines_init (runes_init s))) (out_lines (complete_lines text) (incomplete_line text) e') (translate e') /\
    (rest = [] -> e' = translate e) /\ (rest <> [] -> e' = InvalidUTF8 \/ (e' = e /\ e <> EOF /\ length rest = 1%nat)).
Proof.
  intros B H. destruct (every_bytes_split bs B) as (ps & text & rest & -> & F & No).
  destruct (runes_emits rd _ _ rest s e (Some EOI) F H) as (e1 & s' & E & H').
  destruct rest as [|b rest].
  - destruct (runes_end rd s' e e1 H') as (s2 & Fl). exists ps, text, [], (translate e). split; auto. split; auto. split; auto.
    split; [exact (lines_any (runes_gen rd) text _ _ _ _ E Fl)|]. split; [auto|congruence].
  - assert (Fr : front (b :: rest) = None).
    { apply Forall_app in B as [_ B]. destruct (front (b :: rest)) as [[r bs']|] eqn:Fr; auto. destruct (front_sound _ _ _ B Fr) as (p & Eq & A). exfalso. eapply No; eauto. }
    destruct (runes_bad rd s' (b :: rest) e e1 H' ltac:(discriminate) Fr) as (e' & st' & Fl & Or).
    exists ps, text, (b :: rest), e'. split; auto. split; auto. split; auto.
    split; [exact (lines_any (runes_gen rd) text _ _ _ _ E Fl)|]. split; [discriminate|auto].
Qed.

(** ** Logs *)
Lemma utf8_eol eol : os_eol eol -> utf8 eol = eol.
Proof. intros [-> | ->]; reflexivity. Qed.
Lemma scalar_eol eol : os_eol eol -> Forall scalar eol.
Proof. intros [-> | ->]; repeat constructor; unfold scalar; lia. Qed.
Lemma scalar_ended eol ls : os_eol eol -> Forall line ls -> Forall scalar (ended eol ls).
Proof.
  intros He F. induction F as [|l ls [_ Sc] F IH]; cbn [ended flat_map]; [constructor|]. apply Forall_app. split; auto. apply Forall_app. split; auto. apply scalar_eol; auto.
Qed.
Lemma ended_app eol a b : ended eol (a ++ b) = ended eol a ++ ended eol b.
Proof. unfold ended. apply flat_map_app. Qed.

Lemma log_write {S} (dst : iowriter S) contents ok eol : os_eol eol -> keeps dst contents ok -> forall ls s oe s', ok s ->
  write (line_writer eol dst) s (map utf8 ls) = (oe, s') ->
  ok s' /\
  ((oe = None /\ contents s' = contents s ++ utf8 (ended eol ls)) \/
   (exists e done l post bs, oe = Some e /\ ls = done ++ l :: post /\ starts bs (utf8 (l ++ eol)) /\ contents s' = contents s ++ utf8 (ended eol done) ++ bs)).
Proof.
  intros He K. induction ls as [|l ls IH]; intros s oe s' O W; cbn [map write] in W.
  - injection W as <- <-. split; auto. left. cbn. rewrite app_nil_r. auto.
  - unfold line_writer at 1, write_bytes in W.
    assert (EU : utf8 l ++ eol = utf8 (l ++ eol)) by (rewrite utf8_app, (utf8_eol eol He); reflexivity). rewrite EU in W.
    destruct (dst s (utf8 (l ++ eol))) as [[n oe1] s1] eqn:E. destruct (K _ _ _ _ _ O E) as (O1 & NB & CS).
    destruct oe1 as [e|].
    + injection W as <- <-. split; auto. right. exists e, [], l, ls, (firstn (Z.to_nat n) (utf8 (l ++ eol))). split; auto. split; auto.
      split; [exists (skipn (Z.to_nat n) (utf8 (l ++ eol))); symmetry; apply firstn_skipn|]. exact CS.
    + destruct (Z.ltb_spec n (Z.of_nat (length (utf8 (l ++ eol))))) as [L|L].
      * injection W as <- <-. split; auto. right. exists errNotWritten, [], l, ls, (firstn (Z.to_nat n) (utf8 (l ++ eol))). split; auto. split; auto.
        split; [exists (skipn (Z.to_nat n) (utf8 (l ++ eol))); symmetry; apply firstn_skipn|]. exact CS.
      * rewrite firstn_all2 in CS by lia. destruct (IH s1 oe s' O1 W) as (O2 & [(-> & C2)|(e & done & m & post & bs & -> & -> & B & C2)]); split; auto.
        -- left. split; auto. cbn [ended flat_map]. fold (ended eol ls). rewrite C2, CS, (utf8_app (l ++ eol)), <- app_assoc. reflexivity.
        -- right. exists e, (l :: done), m, post, bs. split; auto. split; auto. split; auto. rewrite C2, CS, <- app_assoc. f_equal.
           cbn [ended flat_map]. fold (ended eol done). rewrite (utf8_app (l ++ eol)), <- app_assoc. reflexivity.
Qed.

(** reading what a log holds: lines, and part of one more *)
Lemma complete_ended eol ls p : os_eol eol -> Forall plain ls -> plain p -> complete_lines (ended eol ls ++ p) = ls /\ incomplete_line (ended eol ls ++ p) = p.
Proof. intros He F P. unfold complete_lines, incomplete_line. rewrite (ended_split eol ls p He F P). auto. Qed.

Lemma lines_plain ls : Forall line ls -> Forall plain ls.
Proof. intros F. eapply Forall_impl; [|exact F]. intros ? [A _]; exact A. Qed.

Theorem log_whole {S} (rd : reader S) s eol ls : os_eol eol -> Forall line ls -> holds rd s (utf8 (ended eol ls)) EOF ->
  yields (next (lines_gen (runes_gen rd))) (ofIter (lines_init (runes_init s))) ls EOI.
Proof.
  intros He F H. pose proof (lines_whole rd s (ended eol ls) EOF (scalar_ended eol ls He F) H) as Y.
  destruct (complete_ended eol ls [] He (lines_plain _ F)) as [A B]; [split; intros []|]. rewrite app_nil_r in A, B. rewrite A, B in Y. exact Y.
Qed.

Lemma plain_starts p l : starts p l -> plain l -> plain p.
Proof. intros (q & ->) [A B]. split; intros X; [apply A|apply B]; apply in_or_app; auto. Qed.

Lemma starts_app_cases {A} (p l t : list A) : starts p (l ++ t) -> starts p l \/ exists p', p = l ++ p' /\ starts p' t.
Proof.
  revert p. induction l as [|x l IH]; intros p (q & E); [right; exists p; split; auto; exists q; auto|].
  destruct p as [|y p]; [left; exists (x :: l); reflexivity|]. cbn in E. injection E as <- E.
  destruct (IH p (ex_intro _ q E)) as [(q' & ->)|(p' & -> & S)]; [left; exists q'; reflexivity|right; exists p'; auto].
Qed.

Theorem log_torn {S} (rd : reader S) s eol ls l bs e : os_eol eol -> Forall line ls -> line l -> starts bs (utf8 (l ++ eol)) -> holds rd s (utf8 (ended eol ls) ++ bs) e ->
  exists part e', yields (next (lines_gen (runes_gen rd))) (ofIter (lines_init (runes_init s))) (ls ++ part) (translate e') /\
    (part = [] \/ exists p, part = [p] /\ starts p l) /\ (e' = translate e \/ e' = InvalidUTF8) /\ (translate e' <> EOI -> part = [] \/ part = [l]).
Proof.
  intros He F [PL SL] ST H.
  assert (TT : forall e, translate (translate e) = translate e) by (intros []; reflexivity).
  assert (SA : Forall scalar (l ++ eol)) by (apply Forall_app; split; [auto|apply scalar_eol; auto]).
  (* the characters that are left *)
  assert (D : exists p rest, starts p (l ++ eol) /\ bs = utf8 p ++ rest /\ (rest = [] \/ exists r, scalar r /\ rest <> [] /\ cut_short rest (encode r))).
  { destruct ST as ([|y q] & E).
    - rewrite app_nil_r in E. exists (l ++ eol), []. split; [exists []; rewrite app_nil_r; auto|]. rewrite app_nil_r. auto.
    - destruct (cut_split (l ++ eol) bs) as (p & r & q' & rest & EQ & -> & C); [exists (y :: q); split; [discriminate|auto]|].
      exists p, rest. split; [exists (r :: q'); auto|]. split; auto. rewrite EQ in SA. apply Forall_app in SA as [_ SA]. inversion SA; subst.
      destruct rest as [|b rest]; [left; auto|right; exists r; split; [assumption|split; [discriminate|assumption]]]. }
  destruct D as (p & rest & SP & -> & DR).
  assert (SPs : Forall scalar p) by (destruct SP as (q & EQ); rewrite EQ in SA; apply Forall_app in SA; tauto).
  assert (ST2 : Forall scalar (ended eol ls ++ p)) by (apply Forall_app; split; [apply scalar_ended; auto|auto]).
  assert (CL : exists part rem, complete_lines (ended eol ls ++ p) = ls ++ part /\ incomplete_line (ended eol ls ++ p) = rem /\
            ((part = [] /\ starts rem l) \/ (part = [l] /\ rem = []))).
  { destruct (starts_app_cases p l eol SP) as [SPL|(p' & -> & SE)].
    - destruct (complete_ended eol ls p He (lines_plain _ F) (plain_starts _ _ SPL PL)) as [A B]. exists [], p. rewrite app_nil_r. auto.
    - assert (G : forall t, t = [10] \/ t = [13] \/ t = [13; 10] -> cuts (kept false (ended eol ls ++ l ++ t)) = (ls ++ [l], [])).
      { intros t Ht. clear - He F PL Ht. induction F as [|m ls [Pm _] F IH]; cbn [ended flat_map app].
        - rewrite (plain_kept l PL), (plain_cuts_app l _ PL). destruct Ht as [->|[-> | ->]]; cbn; rewrite ?app_nil_r; reflexivity.
        - rewrite <- !app_assoc, (plain_kept m Pm), (plain_cuts_app m _ Pm). fold (ended eol ls).
          destruct He as [-> | ->]; cbn [app kept Z.eqb Pos.eqb]; rewrite cuts_cons_end by auto; rewrite IH; cbn [fst snd]; rewrite app_nil_r; reflexivity. }
      assert (CE : p' = [] \/ p' = [10] \/ p' = [13] \/ p' = [13; 10]).
      { clear - SE He. destruct SE as (q & EQ). destruct He as [-> | ->]; destruct p' as [|a [|b [|c p']]]; cbn [app] in EQ; try discriminate EQ; [auto| |auto| |];
          injection EQ; intros; subst; auto. }
      destruct CE as [-> |CE].
      + rewrite app_nil_r. destruct (complete_ended eol ls l He (lines_plain _ F) PL) as [A B]. exists [], l. rewrite app_nil_r. split; auto. split; auto. left. split; auto. exists []; rewrite app_nil_r; auto.
      + exists [l], []. unfold complete_lines, incomplete_line. rewrite (G p' CE). auto. }
  destruct CL as (part & rem & C1 & C2 & CP).
  rewrite app_assoc, <- utf8_app in H.
  assert (FIN : forall e', yields (next (lines_gen (runes_gen rd))) (ofIter (lines_init (runes_init s))) (out_lines (ls ++ part) rem e') (translate e') ->
     (e' = translate e \/ e' = InvalidUTF8) ->
     exists part e', yields (next (lines_gen (runes_gen rd))) (ofIter (lines_init (runes_init s))) (ls ++ part) (translate e') /\
    (part = [] \/ exists p, part = [p] /\ starts p l) /\ (e' = translate e \/ e' = InvalidUTF8) /\ (translate e' <> EOI -> part = [] \/ part = [l])).
  { intros e' Y O. unfold out_lines in Y. destruct CP as [[-> SR]|[-> ->]].
    - rewrite app_nil_r in Y. destruct (translate e') eqn:Te.
      2-7: (exists [], e'; rewrite Te, app_nil_r; repeat split; auto).
      destruct rem as [|c rem].
      + exists [], e'. rewrite Te, app_nil_r. repeat split; auto.
      + exists [c :: rem], e'. rewrite Te. split; auto. split; [right; eexists; split; eauto|]. split; auto. congruence.
    - exists [l], e'. split; [destruct (translate e'); exact Y|]. split; [right; exists l; split; auto; exists []; rewrite app_nil_r; auto|]. split; auto. }
  destruct DR as [-> |(r & SR & NR & CR)].
  - rewrite app_nil_r in H. pose proof (lines_whole rd s _ e ST2 H) as Y. rewrite C1, C2 in Y. apply (FIN (translate e)); [|auto].
    rewrite TT. unfold out_lines in *. rewrite TT. exact Y.
  - destruct (lines_torn rd s (ended eol ls ++ p) rest e) as (e' & Y & O); auto.
    + pose proof (part_bytes r SR) as FB. destruct CR as (y & _ & EY). rewrite EY in FB. apply Forall_app in FB. tauto.
    + apply (part_rejected r rest SR CR).
    + rewrite C1, C2 in Y. apply (FIN e'); auto. destruct O as [-> |(-> & N & _)]; auto. left. destruct e; auto; congruence.
Qed.

(** going on after a torn line *)
Theorem log_resumed {S} (rd : reader S) s eol old p l ls : os_eol eol -> Forall line old -> line p -> line l -> Forall line ls ->
  holds rd s (utf8 (ended eol old ++ p) ++ utf8 (ended eol (l :: ls))) EOF ->
  yields (next (lines_gen (runes_gen rd))) (ofIter (lines_init (runes_init s))) (old ++ (p ++ l) :: ls) EOI.
Proof.
  intros He FO [PP SP] [PL SL] FL H. rewrite <- utf8_app in H.
  apply (log_whole rd s eol (old ++ (p ++ l) :: ls) He).
  - apply Forall_app. split; auto. constructor; auto. split; [|apply Forall_app; auto].
    destruct PP as [A B], PL as [C D]. split; intros X; apply in_app_or in X; tauto.
  - replace (ended eol (old ++ (p ++ l) :: ls)) with ((ended eol old ++ p) ++ ended eol (l :: ls)); auto.
    rewrite ended_app. cbn [ended flat_map]. rewrite <- !app_assoc. reflexivity.
Qed.
