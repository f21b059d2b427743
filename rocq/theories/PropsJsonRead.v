(** C112: documents one after the other in one io.Reader. *)
From Verif Require Import Base GoMap Iter IterSpec IterProofs Readers ReaderSpec ReaderProofs Stream Writer WriterProofs Union Rest Json JsonLex JsonParse JsonWrite JsonSim JsonSpec JsonLexProofs JsonTokProofs JsonParseProofs JsonDocProofs JsonApiProofs JsonWriteProofs JsonIterProofs JsonFaultSpec JsonFaultProofs2 JsonFaultProofs3 JsonRead JsonReadProofs JsonReadProofs2 JsonReadProofs3 PropsReader PropsJson PropsJsonFault.
From Coq Require Import ZifyBool.
Open Scope go_scope.
Open Scope Z_scope.

(** Parse reads a document and not one character more: whatever the reader delivers after the document, it still delivers afterwards. *)
Theorem C112_parse_reads {S} (rd : reader S) s text t rest e : document text t -> reads rd s (text ++ rest) e ->
  exists s', settles (ParseFrom rd s) ((value_of t, None), s') /\ reads rd s' rest e.
Proof. intros D R. destruct (parse_from rd s text t rest e D R) as (s' & A & B & _). eauto. Qed.
Print Assumptions C112_parse_reads.

(** Not one byte more either: the bytes after the document may be anything, UTF-8 or not. *)
Theorem C112_parse_bytes {S} (rd : reader S) s text t bytes e : document text t -> Forall scalar text -> Forall byte bytes ->
  holds rd s (utf8 text ++ bytes) e -> exists s', settles (ParseFrom rd s) ((value_of t, None), s') /\ holds rd s' bytes e.
Proof. apply parse_from_bytes. Qed.
Print Assumptions C112_parse_bytes.

(** ParseFrom is Parse, with the reader it leaves. *)
Theorem C112_is_parse {S} (rd : reader S) s r s' : settles (ParseFrom rd s) (r, s') -> settles (Parse rd s) r.
Proof.
  intros [n H]. exists n. intros m L. specialize (H m L). unfold ParseFrom in H. unfold Parse.
  destruct (parse_doc (tok_next rd) unread m (tokens_of s)) as [[r0 i]|p|]; cbn in *; try discriminate. injection H as -> _. reflexivity.
Qed.
Print Assumptions C112_is_parse.

(** So a stream of documents can be read by calling Parse again and again on the same reader: each call returns the next document. *)
Theorem C112_stream {S} (rd : reader S) texts ts s rest e : Forall2 document texts ts -> reads rd s (concat texts ++ rest) e ->
  exists s', settles (ParseMany rd (length texts) s) (map (fun t => (value_of t, None)) ts, s') /\ reads rd s' rest e.
Proof. intros F R. eapply parse_many; eauto. Qed.
Print Assumptions C112_stream.
Theorem C112_stream_bytes {S} (rd : reader S) texts ts s bytes e : Forall2 document texts ts -> Forall (Forall scalar) texts -> Forall byte bytes ->
  holds rd s (utf8 (concat texts) ++ bytes) e ->
  exists s', settles (ParseMany rd (length texts) s) (map (fun t => (value_of t, None)) ts, s') /\ holds rd s' bytes e.
Proof. intros F FS FB H. eapply parse_many_bytes; eauto. Qed.
Print Assumptions C112_stream_bytes.

(** At the end of the stream, where only white space may be left, Parse says that the document is empty; a failure of the reader is
    returned as it is. *)
Theorem C112_stream_end {S} (rd : reader S) s w e : Forall wsc w -> reads rd s w e ->
  exists s', settles (ParseFrom rd s) ((zv, Some (match e with EOI => errEmptyDocument | _ => e end)), s').
Proof. intros F R. destruct (parse_empty rd s w e F R) as (s' & P). exists s'. destruct e; exact P. Qed.
Print Assumptions C112_stream_end.

(** Iterate over an array: after the elements and EOI, what came after the closing bracket is still in the reader. *)
Theorem C112_iterate {S} (rd : reader S) s text l rest e : document text (JArr l) -> reads rd s (text ++ rest) e ->
  exists it it1 it2 s', settles (Iterate rd s) it /\ emits (doc_next (tok_next rd) unread) it (map value_of l) it1 /\
    fails (doc_next (tok_next rd) unread) it1 EOI it2 /\ iter_reader it2 = Some s' /\ reads rd s' rest e.
Proof. intros D R. destruct (iterate_from rd s text l rest e D R) as (it & it1 & it2 & s' & A & B & C & E & F & _). exists it, it1, it2, s'. auto. Qed.
Print Assumptions C112_iterate.
Theorem C112_iterate_bytes {S} (rd : reader S) s text l bytes e : document text (JArr l) -> Forall scalar text -> Forall byte bytes ->
  holds rd s (utf8 text ++ bytes) e ->
  exists it it1 it2 s', settles (Iterate rd s) it /\ emits (doc_next (tok_next rd) unread) it (map value_of l) it1 /\
    fails (doc_next (tok_next rd) unread) it1 EOI it2 /\ iter_reader it2 = Some s' /\ holds rd s' bytes e.
Proof. apply iterate_from_bytes. Qed.
Print Assumptions C112_iterate_bytes.

(** ** A log of documents *)
Lemma utf8_concat l : utf8 (concat l) = concat (map utf8 l).
Proof. induction l as [|x l IH]; cbn; [reflexivity|]. unfold utf8 in *. rewrite flat_map_app, IH. reflexivity. Qed.
Lemma log_kept {S} (dst : iowriter S) contents ok : keeps dst contents ok -> forall ts s, ok s -> Forall writable ts ->
  exists n oe s' bs more, WriteMany dst (map (fun t => value_of (tree_of t)) ts) s = Done (n, oe, s') /\ (n <= length ts)%nat /\ (oe = None <-> n = length ts) /\
    contents s' = contents s ++ utf8 (concat (map render (firstn n ts))) ++ bs /\
    (bs = [] \/ exists t, nth_error ts n = Some t /\ utf8 (render t) = bs ++ more).
Proof.
  intros K. induction ts as [|t ts IH]; intros s O F.
  - exists 0%nat, None, s, [], []. cbn. rewrite app_nil_r. split; [reflexivity|]. split; [lia|]. split; [tauto|]. auto.
  - inversion F as [|? ? W F2]; subst. destruct (write_kept dst contents ok K (render t) s O (render_scalar t W)) as (oe & s1 & bs & more & E & O1 & CS & U & N).
    cbn [map WriteMany]. rewrite C57_text by (apply writable_encodable; auto). rewrite E. cbn [obind]. destruct oe as [x|].
    + exists 0%nat, (Some x), s1, bs, more. split; [reflexivity|]. split; [lia|]. split; [split; discriminate|]. split; [exact CS|]. right. exists t. auto.
    + specialize (N eq_refl). subst more. rewrite app_nil_r in U. destruct (IH s1 O1 F2) as (n & oe2 & s2 & bs2 & more2 & E2 & L & NE & CS2 & T).
      rewrite E2. cbn [obind]. exists (Datatypes.S n), oe2, s2, bs2, more2. split; [reflexivity|]. split; [cbn; lia|]. split; [cbn; split; intros X; [f_equal; apply NE; exact X|apply NE; lia]|]. split; [|exact T].
      rewrite CS2, CS, <- U. cbn [firstn map concat]. unfold utf8. rewrite flat_map_app, <- !app_assoc. reflexivity.
Qed.
Lemma split_at {A} (a b c d : list A) : a ++ b = c ++ d -> (exists m, c = a ++ m /\ b = m ++ d) \/ (exists m, m <> [] /\ a = c ++ m).
Proof.
  revert c. induction a as [|x a IH]; intros c E; [left; exists c; auto|]. destruct c as [|y c]; cbn in E.
  - right. exists (x :: a). split; [discriminate|reflexivity].
  - injection E as -> E. destruct (IH c E) as [(m & -> & ->)|(m & N & ->)]; [left|right]; exists m; auto.
Qed.
Lemma log_cut : forall ts bs more, utf8 (concat (map render ts)) = bs ++ more ->
  exists k rest, (k <= length ts)%nat /\ bs = utf8 (concat (map render (firstn k ts))) ++ rest /\
    (k = length ts /\ rest = [] \/ exists t, nth_error ts k = Some t /\ cut_short rest (utf8 (render t))).
Proof.
  induction ts as [|t ts IH]; intros bs more E.
  - exists 0%nat, []. destruct bs; [cbn; auto|discriminate].
  - cbn [map concat] in E. unfold utf8 in E. rewrite flat_map_app in E. fold (utf8 (render t)) (utf8 (concat (map render ts))) in E.
    destruct (split_at _ _ _ _ E) as [(m & -> & E2)|(m & N & E2)].
    + destruct (IH m more E2) as (k & rest & L & -> & C). exists (Datatypes.S k), rest. split; [cbn; lia|]. split; [|cbn; destruct C as [[-> ->]|C]; auto].
      cbn [firstn map concat]. unfold utf8. rewrite flat_map_app, <- app_assoc. reflexivity.
    + exists 0%nat, bs. split; [lia|]. split; [reflexivity|]. right. exists t. split; [reflexivity|]. exists m. auto.
Qed.
Lemma scalar_bytes l : Forall scalar l -> Forall byte (utf8 l).
Proof. induction 1 as [|r l SR FC IH]; cbn; [constructor|]. apply Forall_app. split; auto. eapply accepts_bytes. apply encode_accepts; auto. Qed.
Lemma log_documents ts : Forall writable ts -> Forall rcontainer ts -> Forall2 document (map render ts) (map tree_of ts) /\ Forall (Forall scalar) (map render ts).
Proof.
  intros W. induction W as [|t ts W F IH]; intros C; cbn; [split; constructor|]. inversion C; subst. destruct IH; auto. split; constructor; auto.
  - apply render_document; auto.
  - apply render_scalar; auto.
Qed.
Definition recovered (t : rtree) : ret value := (value_of (tree_of t), None).

Lemma log_read ts k rest : Forall writable ts -> Forall rcontainer ts -> (k <= length ts)%nat ->
  (rest = [] \/ exists t, nth_error ts k = Some t /\ cut_short rest (utf8 (render t))) ->
  exists s e, settles (ParseMany string_reader k (utf8 (concat (map render (firstn k ts))) ++ rest)) (map recovered (firstn k ts), s) /\
    settles (Parse string_reader s) (zv, Some e) /\ e <> EOI /\ (rest = [] -> e = errEmptyDocument).
Proof.
  intros W C L T. set (bs := utf8 (concat (map render (firstn k ts))) ++ rest).
  assert (WK : Forall writable (firstn k ts)). { apply Forall_forall. intros x I. rewrite Forall_forall in W. apply W. rewrite <- (firstn_skipn k ts). apply in_or_app; auto. }
  assert (CK : Forall rcontainer (firstn k ts)). { apply Forall_forall. intros x I. rewrite Forall_forall in C. apply C. rewrite <- (firstn_skipn k ts). apply in_or_app; auto. }
  destruct (log_documents _ WK CK) as [D FS].
  assert (FB : Forall byte rest).
  { destruct T as [->|(t & NT & m & NE & U)]; [constructor|]. apply nth_error_In in NT. rewrite Forall_forall in W. pose proof (scalar_bytes _ (render_scalar t (W t NT))) as B. rewrite U in B. apply Forall_app in B. tauto. }
  pose proof (C10_string_reader_holds bs) as H. unfold bs in H at 2.
  destruct (C112_stream_bytes string_reader _ _ bs rest EOF D FS FB H) as (s & P & HR). rewrite map_length, map_map, firstn_length, Nat.min_l in P by exact L.
  destruct rest as [|b rest].
  - exists s, errEmptyDocument. split; [exact P|]. split; [|split; [discriminate|auto]].
    destruct (C112_stream_end string_reader s [] EOI) as (s' & Q); [constructor| |]; [|exact (C112_is_parse _ _ _ _ Q)].
    exact (runes_yields string_reader [] [] s EOF ltac:(constructor) HR).
  - destruct T as [X|(t & NT & CS)]; [discriminate|]. apply nth_error_In in NT as IT. rewrite Forall_forall in W, C.
    destruct (C111_torn_bytes string_reader s (render t) (tree_of t) (b :: rest) EOF) as (e & Q & NE & _); auto.
    { apply render_document; auto. } { apply render_scalar; auto. }
    exists s, e. split; [exact P|]. split; [exact Q|]. split; [exact NE|discriminate].
Qed.

(** A log of documents written one after the other, cut at any byte: the whole documents come back, each exactly once and in order;
    the part of the next one makes an error, never a value. *)
Theorem C112_torn_log ts bs more : Forall writable ts -> Forall rcontainer ts -> utf8 (concat (map render ts)) = bs ++ more ->
  exists k rest s e, bs = utf8 (concat (map render (firstn k ts))) ++ rest /\ (k <= length ts)%nat /\
    (k = length ts /\ rest = [] \/ exists t, nth_error ts k = Some t /\ cut_short rest (utf8 (render t))) /\
    settles (ParseMany string_reader k bs) (map recovered (firstn k ts), s) /\ settles (Parse string_reader s) (zv, Some e) /\ e <> EOI /\
    (rest = [] -> e = errEmptyDocument).
Proof.
  intros W C E. destruct (log_cut ts bs more E) as (k & rest & L & -> & T).
  destruct (log_read ts k rest W C L) as (s & e & A & B & N & R); [destruct T as [[_ T]|T]; auto|]. exists k, rest, s, e. repeat (split; auto).
Qed.
Print Assumptions C112_torn_log.

(** A log written with Write to a destination that may fail at any call: when reading it back, every document whose Write returned
    nil is there, in order, at most the one whose Write failed is there as well, and after that there is an error. *)
Theorem C112_log {S} (dst : iowriter S) contents ok s ts : keeps dst contents ok -> ok s -> contents s = [] -> Forall writable ts -> Forall rcontainer ts ->
  exists n oe s' k s2 e, WriteMany dst (map (fun t => value_of (tree_of t)) ts) s = Done (n, oe, s') /\ (oe = None <-> n = length ts) /\
    (n <= k <= length ts)%nat /\ (k <= n + 1)%nat /\
    settles (ParseMany string_reader k (contents s')) (map recovered (firstn k ts), s2) /\ settles (Parse string_reader s2) (zv, Some e) /\ e <> EOI /\
    (oe = None -> e = errEmptyDocument).
Proof.
  intros K O C0 W C. destruct (log_kept dst contents ok K ts s O W) as (n & oe & s' & bs & more & E & L & NE & CS & T).
  rewrite C0 in CS. cbn [app] in CS.
  assert (X : exists k rest, (n <= k <= length ts)%nat /\ (k <= n + 1)%nat /\ contents s' = utf8 (concat (map render (firstn k ts))) ++ rest /\ (oe = None -> rest = []) /\
      (rest = [] \/ exists t, nth_error ts k = Some t /\ cut_short rest (utf8 (render t)))).
  { destruct T as [->|(t & NT & U)]; [exists n, []; repeat (split; auto; try lia)|].
    assert (LN : (n < length ts)%nat) by (apply nth_error_Some; rewrite NT; discriminate). destruct more as [|b more].
    - exists (n + 1)%nat, []. split; [lia|]. split; [lia|]. split; [|auto]. rewrite CS, app_nil_r. rewrite app_nil_r in U. rewrite <- U. clear - NT. revert ts NT. induction n as [|n IH]; intros [|u ts] NT; try discriminate.
      + injection NT as ->. cbn. rewrite app_nil_r. reflexivity.
      + specialize (IH ts NT). cbn [firstn Nat.add map concat]. unfold utf8 in *. rewrite !flat_map_app, <- IH, <- app_assoc. reflexivity.
    - exists n, bs. split; [lia|]. split; [lia|]. split; [exact CS|]. split; [intros X; apply NE in X; lia|]. right. exists t. split; auto. exists (b :: more). split; [discriminate|exact U]. }
  destruct X as (k & rest & L1 & L2 & CK & RN & T2). destruct (log_read ts k rest W C ltac:(lia) T2) as (s2 & e & A & B & N & R).
  exists n, oe, s', k, s2, e. rewrite CK. repeat (split; auto; try lia).
Qed.
Print Assumptions C112_log.

(** Non-vacuity: two documents back to back, an object with non-ASCII text and an array, and a destination that fails at its 37th byte. *)
Example C112_nonvacuous : let ts := [RObj [([233], RArr [RNum [45; 49]; RNull; RBool true]); ([98], RStr [128512])]; RArr [RNum [49]; RNum [50; 51]]] in
  Forall writable ts /\ Forall rcontainer ts /\
  keeps (error_write 36 (UserErr 1)) (fun out => out) (fun out => Z.of_nat (length out) <= Z.max 0 36) /\
  exists s', WriteMany (error_write 36 (UserErr 1)) (map (fun t => value_of (tree_of t)) ts) [] = Done (1%nat, Some (UserErr 1), s') /\ length s' = 36%nat.
Proof.
  cbv zeta. destruct C57_nonvacuous as (W & C & _). split; [constructor; [exact W|constructor; [exact whole_writable|constructor]]|]. split; [repeat constructor|].
  split; [apply C111_error_writer_keeps|]. eexists. split; vm_compute; reflexivity.
Qed.
