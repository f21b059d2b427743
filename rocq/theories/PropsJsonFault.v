(** C111: torn JSON documents: a reader that fails, a file that ends too soon, a write that fails. *)
From Verif Require Import Base GoMap Iter IterSpec IterProofs Readers ReaderSpec ReaderProofs Stream Writer WriterProofs Union Rest Json JsonLex JsonParse JsonWrite JsonSim JsonSpec JsonLexProofs JsonTokProofs JsonParseProofs JsonDocProofs JsonApiProofs JsonWriteProofs JsonIterProofs JsonFaultSpec JsonFaultProofs2 JsonFaultProofs3 PropsReader PropsJson.
From Coq Require Import ZifyBool.
Open Scope Z_scope.

(** A reader that fails after the characters [p]: Parse returns its error, or its result did not need anything after [p]: the same
    result comes from every reader whose text starts with [p], however it goes on and ends. *)
Theorem C111_fault {S} (rd : reader S) s p e : reads rd s p e -> e <> EOI ->
  settles (Parse rd s) (zv, Some e) \/
  exists r, settles (Parse rd s) r /\ forall S' (rd' : reader S') s' q e2, reads rd' s' (p ++ q) e2 -> settles (Parse rd' s') r.
Proof. apply parse_fault. Qed.
Print Assumptions C111_fault.

(** Of a document cut short at any character Parse makes an error, never a value; if the reader failed there, the reader's error. *)
Theorem C111_cut {S} (rd : reader S) s text t p e : document text t -> cut_short p text -> reads rd s p e ->
  exists e', settles (Parse rd s) (zv, Some e') /\ e' <> EOI /\ (e <> EOI -> e' = e).
Proof. apply parse_cut. Qed.
Print Assumptions C111_cut.

(** The same for bytes: a UTF-8 file cut at any byte, in the middle of a character too. *)
Theorem C111_torn_bytes {S} (rd : reader S) s text t bs e : document text t -> Forall scalar text -> cut_short bs (utf8 text) -> holds rd s bs e ->
  exists e', settles (Parse rd s) (zv, Some e') /\ e' <> EOI /\ (e <> EOF -> e <> EOI -> e' = e \/ e' = InvalidUTF8).
Proof. apply parse_torn. Qed.
Print Assumptions C111_torn_bytes.

(** Iterate over an array cut short: an error after some of the first elements, each as it was. If the reader failed, its error; if the
    text just ends, there may be one element more, a number of which the first characters are left. *)
Theorem C111_iterate_cut {S} (rd : reader S) s text t p e : document text t -> cut_short p text -> reads rd s p e ->
  exists it vs e', settles (Iterate rd s) it /\ yields (doc_next (tok_next rd) unread) it vs e' /\ e' <> EOI /\
    (e <> EOI -> e' = e /\ first_elements vs t) /\ (e = EOI -> first_elements vs t \/ cut_number vs t).
Proof. apply iterate_cut. Qed.
Print Assumptions C111_iterate_cut.

(** What these say something about: every RFC 8259 text of an object or array with nothing after it, and everything Write writes. *)
Theorem C111_rfc8259 text toks t : lexed text toks [] -> gval true toks t -> container t -> ~ wsc (last text 0) -> document text t.
Proof. apply strict_document. Qed.
Theorem C111_written_document t : writable t -> rcontainer t -> document (render t) (tree_of t).
Proof. apply render_document. Qed.

(** Write to a destination that may keep only a part of what it is given, and may fail at any call (a full disk, a crash): what it
    then contains is the beginning of the document, the whole document if Write returned nil; and Parse of it afterwards gives the
    value if the document is whole, and an error, never another value, if it is not. *)
Theorem C111_write {S} (dst : iowriter S) contents ok s t : keeps dst contents ok -> ok s -> contents s = [] -> writable t -> rcontainer t ->
  exists oe s' more, write_json (write (rune_writer dst)) (value_of (tree_of t)) s = Done (oe, s') /\
    utf8 (render t) = contents s' ++ more /\ (oe = None -> more = []) /\
    (more = [] -> settles (Parse string_reader (contents s')) (value_of (tree_of t), None)) /\
    (more <> [] -> exists e, settles (Parse string_reader (contents s')) (zv, Some e) /\ e <> EOI).
Proof.
  intros K O C0 W C. pose proof (render_scalar t W) as F.
  destruct (write_kept dst contents ok K (render t) s O F) as (oe & s' & bs & more & E & _ & CS & U & N). rewrite C0 in CS. cbn [app] in CS.
  exists oe, s', more. split; [rewrite C57_text by (apply writable_encodable; auto); rewrite E; reflexivity|]. rewrite CS. split; auto. split; auto. split.
  - intros ->. rewrite app_nil_r in U. rewrite <- U. destruct (render_strict t W C) as (toks & G & L).
    eapply parse_accepts; [|apply lexed_tokenized; exact L|exact G|destruct t; cbn in *; auto].
    exact (C10_utf8_decodes string_reader (render t) (utf8 (render t)) EOF F (C10_string_reader_holds (utf8 (render t)))).
  - intros NE. destruct (parse_torn string_reader bs (render t) (tree_of t) bs EOF) as (e & P & Q & _); auto.
    + apply render_document; auto.
    + exists more; auto.
    + apply C10_string_reader_holds.
    + exists e; auto.
Qed.
Print Assumptions C111_write.

(** io.NewErrorWriter is such a destination; with it the outcome is exact: the first [count] bytes, nil if the document fits, and its
    error or errNotWritten otherwise. *)
Theorem C111_error_writer_keeps count e : keeps (error_write count e) (fun out => out) (fun out => Z.of_nat (length out) <= Z.max 0 count).
Proof. apply error_write_keeps. Qed.
Theorem C111_error_writer count e t : 0 <= count -> writable t ->
  exists oe, write_json (write (rune_writer (error_write count e))) (value_of (tree_of t)) [] = Done (oe, firstn (Z.to_nat count) (utf8 (render t))) /\
    (oe = None <-> Z.of_nat (length (utf8 (render t))) <= count) /\ (oe = None \/ oe = Some e \/ oe = Some errNotWritten).
Proof.
  intros HC W. destruct (error_write_runes count e HC (render t) [] (render_scalar t W)) as (oe & E & N & O); [cbn; lia|].
  exists oe. rewrite C57_text by (apply writable_encodable; auto). rewrite E. auto.
Qed.
Print Assumptions C111_error_writer.

(** Finding: of the file [1,23] cut to [1,2 Iterate delivers the elements 1 and 2, and then the error: 2 was never an element. *)
Definition cut_example : list Z := [91; 49; 44; 50].
Lemma number_one c : 49 <= c <= 57 -> json_number [c].
Proof. intros H. exists [], [c], [], []. split; [reflexivity|]. split; [constructor|]. split; [constructor; [lia|constructor]|]. split; constructor. Qed.
Lemma whole_writable : writable (RArr [RNum [49]; RNum [50; 51]]).
Proof.
  apply w_arr. intros u [<-|[<-|[]]]; constructor; [apply number_one; lia|].
  exists [], [50; 51], [], []. split; [reflexivity|]. split; [constructor|]. split; [constructor; [lia|repeat constructor; lia]|]. split; constructor.
Qed.
Lemma digit_lex c rest : 49 <= c <= 57 -> match rest with [] => True | d :: _ => ~ digitc d /\ d <> 46 /\ d <> 101 /\ d <> 69 end -> found EOI [c] (mkTok tNumber [c]) rest.
Proof.
  intros H R. assert (L : lex_number [c] [] []).
  { apply ln_pos; [constructor; [lia|constructor]|constructor|constructor]. }
  apply (fd_number EOI [c] [] [] rest L); auto. destruct rest; cbn; auto; tauto.
Qed.
Theorem C111_cut_number_refuted : exists it e', document [91; 49; 44; 50; 51; 93] (JArr [JNum [49]; JNum [50; 51]]) /\ cut_short cut_example [91; 49; 44; 50; 51; 93] /\
  settles (Iterate string_reader cut_example) it /\ yields (doc_next (tok_next string_reader) unread) it [value_of (JNum [49]); value_of (JNum [50])] e' /\
  ~ first_elements [value_of (JNum [49]); value_of (JNum [50])] (JArr [JNum [49]; JNum [50; 51]]).
Proof.
  pose proof (render_document _ whole_writable Logic.I) as D. cbn in D.
  assert (C : cut_short cut_example [91; 49; 44; 50; 51; 93]) by (exists [51; 93]; split; [discriminate|reflexivity]).
  assert (R : reads string_reader cut_example cut_example EOI) by (apply ascii_reads; ascii).
  destruct (iterate_cut string_reader cut_example _ _ cut_example EOI D C R) as (it & vs & e' & IT & Y & N & _ & O). specialize (O eq_refl).
  assert (TZ : tokenized EOI cut_example [tokOBracket; mkTok tNumber [49]; tokComma; mkTok tNumber [50]] []).
  { punct. apply (tz_tok EOI [49]); [apply digit_lex; [lia|unfold digitc; lia]|]. punct. apply (tz_tok EOI [50] _ []); [apply digit_lex; [lia|exact Logic.I]|]. constructor. }
  destruct (iterate_complete string_reader cut_example cut_example EOI _ [JNum [49]; JNum [50]] [] it vs e' R TZ) as (more & ->); auto.
  { exists tokOBracket, [mkTok tNumber [49]; tokComma; mkTok tNumber [50]]. split; auto. split; auto. split; [discriminate|].
    apply (gs_more false [mkTok tNumber [49]] (JNum [49]) tokComma); [constructor|reflexivity|]. constructor. constructor. }
  assert (NF : forall l, ~ first_elements (value_of (JNum [49]) :: value_of (JNum [50]) :: l) (JArr [JNum [49]; JNum [50; 51]])).
  { intros l (n & E). destruct n as [|[|n]]; discriminate. }
  assert (M : more = []).
  { destruct O as [O|(n & a & b & _ & _ & E)]; [elim (NF _ O)|]. apply (f_equal (@length value)) in E as EL. destruct n as [|[|n]]; cbn in EL.
    - discriminate.
    - destruct more; [reflexivity|discriminate].
    - apply (f_equal (fun l => nth 1 l zv)) in E. destruct n; cbn in E; discriminate E. }
  subst more. exists it, e'. split; [exact D|]. split; [exact C|]. split; [exact IT|]. split; [exact Y|]. apply NF.
Qed.
Print Assumptions C111_cut_number_refuted.

(** White space after a document is not part of it: a file cut there is still complete. *)
Example C111_nonvacuous : let t := RObj [([233], RArr [RNum [45; 49]; RNull; RBool true]); ([98], RStr [128512])] in
  document (render t) (tree_of t) /\ (exists bs, cut_short bs (utf8 (render t)) /\ length bs = 25%nat) /\ length (utf8 (render t)) = 32%nat.
Proof.
  intros t. destruct C57_nonvacuous as (W & C & _). split; [apply render_document; auto|]. split; [|vm_compute; reflexivity].
  exists (firstn 25 (utf8 (render t))). split; [|vm_compute; reflexivity]. exists (skipn 25 (utf8 (render t))). split; [vm_compute; discriminate|]. symmetry. apply firstn_skipn.
Qed.
