(** C114: the lines of any text, of a text cut short, and of a log. *)
From Verif Require Import Base Iter IterGen IterSpec IterProofs IterGenProofs Readers ReaderSpec ReaderProofs Writer WriterProofs JsonSpec JsonFaultSpec JsonFaultProofs3 LinesSpec LinesProofs LinesProofs2.
From Coq Require Import ZifyBool.
Open Scope Z_scope.

(** The lines of any text at all: cut at every CR and LF that is kept, where the first LF after a CR is not.  What follows the last of
    them is a line if it is not empty and the text ended, and is dropped if the reader failed. *)
Theorem C114_lines {S} (it : stepfn S Z) text s s1 e s2 : emits it s text s1 -> fails it s1 e s2 ->
  yields (next (lines_gen it)) (ofIter (lines_init s)) (out_lines (complete_lines text) (incomplete_line text) e) (translate e).
Proof. apply lines_any. Qed.
Print Assumptions C114_lines.

(** For all bytes: the longest beginning that is in the accepted encoding counts, then comes the end, the reader's error or InvalidUTF8. *)
Theorem C114_bytes {S} (rd : reader S) s bs e : Forall byte bs -> holds rd s bs e ->
  exists ps text rest e', bs = concat ps ++ rest /\ Forall2 accepts ps text /\ (forall p r rest', accepts p r -> rest <> p ++ rest') /\
    yields (next (lines_gen (runes_gen rd))) (ofIter (lines_init (runes_init s))) (out_lines (complete_lines text) (incomplete_line text) e') (translate e') /\
    (rest = [] -> e' = translate e) /\ (rest <> [] -> e' = InvalidUTF8 \/ (e' = e /\ e <> EOF /\ length rest = 1%nat)).
Proof. apply lines_bytes. Qed.
Print Assumptions C114_bytes.

(** Whatever the text, no character other than CR and LF is lost, added or moved, and no line contains one of these. *)
Theorem C114_nothing_lost text : concat (complete_lines text) ++ incomplete_line text = filter (fun c => negb ((c =? 13) || (c =? 10))) text.
Proof. apply nothing_lost. Qed.
Theorem C114_plain text : Forall plain (complete_lines text) /\ plain (incomplete_line text).
Proof. apply cuts_plain. Qed.

(** The lines are those of the text (ended by LF, CR or CR LF) exactly when no CR that ends a line alone is followed, somewhere, by an LF
    that ends one alone with no CR between; otherwise there are fewer. *)
Theorem C114_right_iff text ls rest : split_lines text ls rest ->
  (complete_lines text = ls /\ incomplete_line text = rest <-> cr_safe false text) /\ (length (complete_lines text) <= length ls)%nat.
Proof. apply right_iff. Qed.
Print Assumptions C114_right_iff.

(** A text cut anywhere, between CR and LF too: its complete lines are the first complete lines of the whole text, and what follows them
    is the beginning of the next line. *)
Theorem C114_cut p q : exists more, complete_lines (p ++ q) = complete_lines p ++ more /\
  starts (incomplete_line p) (hd [] (more ++ [incomplete_line (p ++ q)])).
Proof. apply cut_lines. Qed.
Print Assumptions C114_cut.

(** So a reader that fails in the middle of a text gives only lines the whole text has, and then its error. *)
Theorem C114_cut_error {S} (it : stepfn S Z) p q s s1 e s2 : emits it s p s1 -> fails it s1 e s2 -> translate e <> EOI ->
  exists ls more, yields (next (lines_gen it)) (ofIter (lines_init s)) ls e /\ complete_lines (p ++ q) = ls ++ more.
Proof.
  intros E F N. destruct (cut_lines p q) as (more & C & _). exists (complete_lines p), more. split; auto.
  pose proof (lines_any it p s s1 e s2 E F) as Y. unfold out_lines in Y. destruct e; cbn in *; congruence || exact Y.
Qed.
Print Assumptions C114_cut_error.

(** A log of lines: lines are appended, with IOWriterAsLines, to a destination that already holds lines and that may keep only a part
    of what it is given and fail at any call.  If every write returned nil, the old lines and the new ones are read back.  Otherwise the
    old ones and those written before the failing one are, then at most a part of the failing line, and then the end or InvalidUTF8. *)
Theorem C114_log {S} (dst : iowriter S) contents ok eol s old ls oe s' : os_eol eol -> keeps dst contents ok -> ok s ->
  Forall line old -> Forall line ls -> contents s = utf8 (ended eol old) ->
  write (line_writer eol dst) s (map utf8 ls) = (oe, s') ->
  match oe with
  | None => yields (next (lines_gen (runes_gen string_reader))) (ofIter (lines_init (runes_init (contents s')))) (old ++ ls) EOI
  | Some _ => exists done l post part e', ls = done ++ l :: post /\ (part = [] \/ exists p, part = [p] /\ starts p l) /\ (e' = EOI \/ e' = InvalidUTF8) /\
      yields (next (lines_gen (runes_gen string_reader))) (ofIter (lines_init (runes_init (contents s')))) (old ++ done ++ part) e'
  end.
Proof.
  intros He K O FO FL C W. destruct (log_write dst contents ok eol He K ls s oe s' O W) as (_ & [(-> & C2)|(e & done & l & post & bs & -> & EL & B & C2)]); rewrite C in C2.
  - rewrite C2, <- utf8_app, <- ended_app. apply (log_whole string_reader _ eol); auto; [apply Forall_app; auto|apply string_reader_holds].
  - subst ls. apply Forall_app in FL as [FD FL]. inversion FL as [|? ? LL _]; subst.
    rewrite app_assoc, <- utf8_app, <- ended_app in C2.
    destruct (log_torn string_reader (contents s') eol (old ++ done) l bs EOF He) as (part & e' & Y & P & E & _); auto.
    + apply Forall_app; auto.
    + rewrite C2. apply string_reader_holds.
    + exists done, l, post, part, (translate e'). split; auto. split; auto. rewrite app_assoc. split; auto. destruct E as [-> | ->]; auto.
Qed.
Print Assumptions C114_log.

(** Reading such a log with a reader that itself fails: the lines, possibly the last one if it was whole, and the error. *)
Theorem C114_log_torn {S} (rd : reader S) s eol ls l bs e : os_eol eol -> Forall line ls -> line l -> starts bs (utf8 (l ++ eol)) -> holds rd s (utf8 (ended eol ls) ++ bs) e ->
  exists part e', yields (next (lines_gen (runes_gen rd))) (ofIter (lines_init (runes_init s))) (ls ++ part) (translate e') /\
    (part = [] \/ exists p, part = [p] /\ starts p l) /\ (e' = translate e \/ e' = InvalidUTF8) /\ (translate e' <> EOI -> part = [] \/ part = [l]).
Proof. apply log_torn. Qed.
Print Assumptions C114_log_torn.

(** Finding: a torn last line is delivered as a line, without an error ... *)
Definition torn_log : option err * list Z := write (line_writer [10] (error_write 5 errNotWritten)) [] [[97; 98; 99]; [100; 101; 102]].
Theorem C114_torn_line_refuted : torn_log = (Some errNotWritten, [97; 98; 99; 10; 100]) /\
  yields (next (lines_gen (runes_gen string_reader))) (ofIter (lines_init (runes_init (snd torn_log)))) [[97; 98; 99]; [100]] EOI.
Proof.
  split; [reflexivity|]. change (snd torn_log) with (utf8 [97; 98; 99; 10; 100]).
  apply (lines_whole string_reader _ [97; 98; 99; 10; 100] EOF); [repeat constructor; unfold scalar; lia|apply string_reader_holds].
Qed.
(** ... and the next line appended to such a log becomes a part of it. *)
Theorem C114_resumed_refuted {S} (rd : reader S) s eol old p l ls : os_eol eol -> Forall line old -> line p -> line l -> Forall line ls ->
  holds rd s (utf8 (ended eol old ++ p) ++ utf8 (ended eol (l :: ls))) EOF ->
  yields (next (lines_gen (runes_gen rd))) (ofIter (lines_init (runes_init s))) (old ++ (p ++ l) :: ls) EOI.
Proof. apply log_resumed. Qed.
Print Assumptions C114_resumed_refuted.

(** Not vacuous: a text on which the reader is wrong, and its lines; a log with an old line and a torn one. *)
Example C114_nonvacuous :
  complete_lines [97; 13; 98; 10; 99; 10; 13; 10; 100] = [[97]; [98; 99]; []] /\ incomplete_line [97; 13; 98; 10; 99; 10; 13; 10; 100] = [100] /\
  ~ cr_safe false [97; 13; 98; 10] /\
  (exists s', write (line_writer [13; 10] (error_write 8 EOF)) [104; 105; 13; 10] (map utf8 [[228; 246]; [120]]) = (Some errNotWritten, s') /\
    s' = utf8 (ended [13; 10] [[104; 105]] ++ [228; 246])) /\
  Forall line [[104; 105]] /\ Forall line [[228; 246]; [120]].
Proof.
  split; [reflexivity|]. split; [reflexivity|]. split.
  - intros C. inversion C; subst. match goal with H : cr_safe false (13 :: _) |- _ => inversion H; subst; try congruence end.
    match goal with H : cr_safe true (98 :: _) |- _ => inversion H; subst end. match goal with H : cr_safe true (10 :: _) |- _ => inversion H; subst; congruence end.
  - split; [eexists; split; reflexivity|]. assert (L : forall l, forallb (fun c => (13 <? c) && (c <? 55296)) l = true -> line l).
    { intros l H. rewrite forallb_forall in H. split; [split; intros I; apply H in I; lia|]. rewrite Forall_forall. intros c I. apply H in I. unfold scalar. lia. }
    split; (repeat (apply Forall_cons; [apply L; reflexivity|])); apply Forall_nil.
Qed.
