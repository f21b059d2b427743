(** Property theorems C09-C12, C52-C54, C63: readers, UTF-8, lines, writers. *)
From Verif Require Import Base IterSpec Iter IterProofs Readers ReaderSpec ReaderProofs Writer WriterSpec WriterProofs.
From Verif Require IterGen IterGenProofs.
Open Scope Z_scope.

(** C09. A reader that delivers [bs] byte by byte and then (no byte, e): the bytes in order, then the final error
    (EOI for EOF, or the error of Close when the reader is a Closer and closing fails). *)
Theorem C09_reader_bytes {S} (rd : reader S) s bs e s' :
  reads1 rd s bs e s' ->
  yields (next (bytes_gen rd)) (ofIter (bytes_init s)) bs (final_error rd e s').
Proof. exact (bytes_yields rd s bs e s'). Qed.
Print Assumptions C09_reader_bytes.

(** C09. At the end the reader is closed, once, if it is a Closer and ended with EOF; later calls do not touch it. *)
Theorem C09_closes_once {S} (rd : reader S) s bs e s' :
  reads1 rd s bs e s' ->
  exists st b, emits (bytes_gen rd) (bytes_init s) bs st /\
    (forall fuel, bytes_gen rd fuel st = Done ((0, Some (final_error rd e s')), (true, b, after_close rd e s'))) /\
    (forall fuel, bytes_gen rd fuel (true, b, after_close rd e s') = Done ((0, Some EOI), (true, b, after_close rd e s'))).
Proof. exact (bytes_closes rd s bs e s'). Qed.
Print Assumptions C09_closes_once.

Example C09_nonvacuous : reads1 string_reader [104; 105] [104; 105] EOF [] /\ final_error string_reader EOF [] = EOI.
Proof. split; [repeat (econstructor; [reflexivity|]); constructor; reflexivity|reflexivity]. Qed.

(** C09 finding 1: the generating function called again after a non-EOF error returns EOI, not the same error. *)
Theorem C09_same_error_again_refuted :
  exists (rd : reader unit) st1,
    bytes_gen rd 0%nat (bytes_init tt) = Done ((0, Some (UserErr 5)), st1) /\
    exists st2, bytes_gen rd 0%nat st1 = Done ((0, Some EOI), st2).
Proof.
  exists (mkReader (fun s _ => (([], Some (UserErr 5)), s)) None). eexists. split; [reflexivity|].
  eexists. reflexivity.
Qed.
Print Assumptions C09_same_error_again_refuted.

(** C09 finding 2: a reader may return (0, nil) or (1, EOF); then a byte is repeated, or lost. *)
Theorem C09_any_legal_reader_refuted :
  (exists rd : reader nat,   (* 65, then "nothing yet", then EOF *)
     yields (next (bytes_gen rd)) (ofIter (bytes_init 0%nat)) [65; 65] EOI /\
     rread rd 0%nat 1 = (([65], None), 1%nat) /\ rread rd 1%nat 1 = (([], None), 2%nat) /\
     rread rd 2%nat 1 = (([], Some EOF), 2%nat)) /\
  (exists rd : reader nat,   (* 65 together with EOF *)
     yields (next (bytes_gen rd)) (ofIter (bytes_init 0%nat)) [] EOI /\
     rread rd 0%nat 1 = (([65], Some EOF), 1%nat)).
Proof.
  split.
  - exists (mkReader (fun s _ => match s with
                                 | 0%nat => (([65], None), 1%nat)
                                 | 1%nat => (([], None), 2%nat)
                                 | k => (([], Some EOF), k)
                                 end) None).
    split; [|repeat split]. eapply ofIter_yields.
    + econstructor. { exists 0%nat. intros; reflexivity. }
      econstructor. { exists 0%nat. intros; reflexivity. } constructor.
    + exists 0, 0%nat. intros; reflexivity.
  - exists (mkReader (fun s _ => (([65], Some EOF), 1%nat)) None).
    split; [|reflexivity]. eapply ofIter_yields; [constructor|]. exists 0, 0%nat. intros; reflexivity.
Qed.
Print Assumptions C09_any_legal_reader_refuted.

(** C10. For every sequence of Unicode scalar values, the runes of a reader holding its UTF-8 encoding. *)
Theorem C10_utf8_decodes {S} (rd : reader S) rs s e :
  Forall scalar rs -> holds rd s (flat_map encode rs) e ->
  yields (next (runes_gen rd)) (ofIter (runes_init s)) rs (translate e).
Proof. exact (runes_encode rd rs s e). Qed.
Print Assumptions C10_utf8_decodes.

(** strings.NewReader meets the hypothesis for every content, so OfStringAsLines, StringAsRunesIterGen etc. do. *)
Theorem C10_string_reader_holds bs : holds string_reader bs bs EOF.
Proof. exact (string_reader_holds bs). Qed.
Print Assumptions C10_string_reader_holds.

Example C10_nonvacuous :
  Forall scalar [97; 233; 8364; 128512] /\
  flat_map encode [97; 233; 8364; 128512] = [97; 195; 169; 226; 130; 172; 240; 159; 152; 128].
Proof. split; [repeat constructor; unfold scalar; lia|reflexivity]. Qed.

(** C10 finding: a reader that returns fewer bytes than asked for (legal for io.Reader) makes valid UTF-8 fail. *)
Theorem C10_short_reads_refuted :
  exists rd : reader (list Z),
    (forall bs n, rread rd bs n = ((firstn 1 bs, match bs with [] => Some EOF | _ => None end), skipn 1 bs)) /\
    scalar 8364 /\ encode 8364 = [226; 130; 172] /\
    yields (next (runes_gen rd)) (ofIter (runes_init (encode 8364))) [] InvalidUTF8.
Proof.
  exists (mkReader (fun bs _ => ((firstn 1 bs, match bs with [] => Some EOF | _ => None end), skipn 1 bs)) None).
  split; [reflexivity|]. split; [unfold scalar; lia|]. split; [reflexivity|].
  eapply ofIter_yields; [constructor|]. exists 0, 0%nat. intros; reflexivity.
Qed.
Print Assumptions C10_short_reads_refuted.

(** C11. The accepted language, exactly.  Sequences of accepted encodings give their runes ... *)
Theorem C11_accepted {S} (rd : reader S) ps rs s e :
  Forall2 accepts ps rs -> holds rd s (concat ps) e ->
  yields (next (runes_gen rd)) (ofIter (runes_init s)) rs (translate e).
Proof. exact (runes_yields rd ps rs s e). Qed.
Print Assumptions C11_accepted.

(** ... as soon as no accepted encoding is a prefix of what is left, the iteration ends with InvalidUTF8EncodingError
    (or with the reader's own error, when the input broke off right after a lead byte) ... *)
Theorem C11_rejected {S} (rd : reader S) ps rs rest s e :
  Forall2 accepts ps rs -> Forall byte rest -> rest <> [] ->
  (forall p r rest', accepts p r -> rest <> p ++ rest') ->
  holds rd s (concat ps ++ rest) e ->
  exists e', yields (next (runes_gen rd)) (ofIter (runes_init s)) rs e' /\
    (e' = InvalidUTF8 \/ (e' = e /\ e <> EOF /\ length rest = 1%nat)).
Proof. exact (runes_invalid rd ps rs rest s e). Qed.
Print Assumptions C11_rejected.

(** ... every byte sequence splits this way, so the two theorems cover all inputs ... *)
Theorem C11_cover bs : Forall byte bs ->
  exists ps rs rest, bs = concat ps ++ rest /\ Forall2 accepts ps rs /\
    (forall p r rest', accepts p r -> rest <> p ++ rest').
Proof. exact (every_bytes_split bs). Qed.
Print Assumptions C11_cover.

(** ... and no rune outside 0..10FFFF is ever produced. *)
Theorem C11_rune_range p r : accepts p r -> 0 <= r <= 1114111.
Proof. exact (accepts_range p r). Qed.
Print Assumptions C11_rune_range.

Example C11_nonvacuous :
  Forall2 accepts [[97]; [226; 130; 172]] [97; 8364] /\
  (forall p r rest', accepts p r -> [226; 130] <> p ++ rest').
Proof.
  split.
  - constructor; [apply acc1; lia|]. constructor; [|constructor]. apply (acc3 2 2 44); lia.
  - intros p r rest' A. destruct A; cbn [app]; intros E.
    + assert (X : hd 0 [226; 130] = b) by (rewrite E; reflexivity). simpl in X. lia.
    + assert (X : hd 0 [226; 130] = 192 + a) by (rewrite E; reflexivity). simpl hd in X. lia.
    + discriminate.
    + discriminate.
Qed.

(** C11 finding: the accepted language is larger than UTF-8: an overlong NUL and a lone surrogate are accepted. *)
Theorem C11_only_utf8_refuted :
  (exists bs, yields (next (runes_gen string_reader)) (ofIter (runes_init bs)) [0] EOI /\ bs <> encode 0) /\
  (exists bs r, yields (next (runes_gen string_reader)) (ofIter (runes_init bs)) [r] EOI /\ ~ scalar r).
Proof.
  split.
  - exists [192; 128]. split; [|discriminate].
    apply (runes_yields string_reader [[192; 128]] [0] [192; 128] EOF); [|apply string_reader_holds].
    constructor; [apply (acc2 0 0); lia|constructor].
  - exists [237; 160; 128], 55296. split; [|unfold scalar; lia].
    apply (runes_yields string_reader [[237; 160; 128]] [55296] [237; 160; 128] EOF); [|apply string_reader_holds].
    constructor; [apply (acc3 13 32 0); lia|constructor].
Qed.
Print Assumptions C11_only_utf8_refuted.

(** C12. Lines, for every text in which no lone CR is followed by a lone LF later on. *)
Theorem C12_lines {S} (it : stepfn S Z) text ls rest s s1 e s2 :
  split_lines text ls rest -> cr_safe false text -> emits it s text s1 -> fails it s1 e s2 ->
  yields (next (lines_gen it)) (ofIter (lines_init s)) (out_lines ls rest e) (translate e).
Proof. exact (lines_yields it text ls rest s s1 e s2). Qed.
Print Assumptions C12_lines.

(** every text has a split into lines *)
Theorem C12_split_total text : exists ls rest, split_lines text ls rest.
Proof. exact (split_total text). Qed.
Print Assumptions C12_split_total.

Example C12_nonvacuous :   (* "a", CR LF, "", LF, "b" *)
  split_lines [97; 13; 10; 10; 98] [[97]; []] [98] /\ cr_safe false [97; 13; 10; 10; 98] /\
  out_lines [[97]; []] [98] EOF = [[97]; []; [98]].
Proof.
  assert (P1 : forall x, x <> 10 -> x <> 13 -> plain [x]) by (intros x A B; split; intros [X|[]]; congruence).
  assert (P0 : plain []) by (split; intros []).
  split; [|split; [|reflexivity]].
  - apply (split_line [97] [13; 10] [10; 98]); [apply P1; lia|constructor|discriminate|].
    apply (split_line [] [10] [98]); [exact P0|constructor|discriminate|]. constructor. apply P1; lia.
  - apply safe_other; try lia. apply safe_crlf. apply safe_lf. apply safe_other; try lia. constructor.
Qed.

(** C12 finding: after a CR-terminated line, the next LF-terminated line is merged with the text that follows it. *)
Theorem C12_lone_cr_then_lf_refuted {S} (it : stepfn S Z) l1 l2 l3 s s1 s2 :
  plain l1 -> plain l2 -> plain l3 -> l2 <> [] ->
  emits it s (l1 ++ [13] ++ l2 ++ [10] ++ l3) s1 -> fails it s1 EOI s2 ->
  yields (next (lines_gen it)) (ofIter (lines_init s)) [l1; l2 ++ l3] EOI.
Proof. exact (lines_merge it l1 l2 l3 s s1 s2). Qed.
Print Assumptions C12_lone_cr_then_lf_refuted.

Example C12_refuted_instance :   (* "a\rb\nc" gives "a", "bc" *)
  yields (next (lines_gen (IterGen.slice_gen [97; 13; 98; 10; 99]))) (ofIter (lines_init 0%nat)) [[97]; [98; 99]] EOI.
Proof.
  assert (P1 : forall x, x <> 10 -> x <> 13 -> plain [x]) by (intros x A B; split; intros [X|[]]; congruence).
  apply (C12_lone_cr_then_lf_refuted _ [97] [98] [99] 0%nat 5%nat 5%nat); try (apply P1; lia); try discriminate.
  - apply (IterGenProofs.slice_emits [97; 13; 98; 10; 99]).
  - apply (IterGenProofs.slice_fails [97; 13; 98; 10; 99]).
Qed.

(** C52. Write: nil iff all values were accepted in order; an error iff some value was refused after all before it
    were accepted, and then nothing after it is attempted. *)
Theorem C52_write_nil {S T} (fn : S -> T -> option err * S) s vals s' :
  write fn s vals = (None, s') <-> accepted fn s vals s'.
Proof. exact (write_ok fn s vals s'). Qed.
Print Assumptions C52_write_nil.

Theorem C52_write_error {S T} (fn : S -> T -> option err * S) s vals e s' :
  write fn s vals = (Some e, s') <->
  exists pre v post s1, vals = pre ++ v :: post /\ accepted fn s pre s1 /\ fn s1 v = (Some e, s').
Proof. exact (write_err fn s vals e s'). Qed.
Print Assumptions C52_write_error.

Theorem C52_slice_writer {T} (slc vals : list T) : write slice_writer slc vals = (None, slc ++ vals).
Proof. exact (slice_write slc vals). Qed.
Print Assumptions C52_slice_writer.

Theorem C52_map_writer {K V} (eqb : K -> K -> bool) (m : K -> option V) kvs :
  exists m', write (map_writer eqb) m kvs = (None, m') /\
    forall k, m' k = match last_for eqb k kvs with Some v => Some v | None => m k end.
Proof. exact (map_write eqb m kvs). Qed.
Print Assumptions C52_map_writer.

Example C52_nonvacuous :   (* a destination refusing the value 3 *)
  let fn (s : list Z) v := if v =? 3 then (Some (UserErr 1), s) else (None, s ++ [v]) in
  write fn [] [1; 2; 3; 4] = (Some (UserErr 1), [1; 2]) /\ accepted fn [] [1; 2] [1; 2].
Proof. split; [reflexivity|]. repeat (econstructor; [reflexivity|]). constructor. Qed.

(** C53. Runes written and read back. *)
Theorem C53_rune_round_trip rs :
  Forall scalar rs ->
  exists bs, write (rune_writer buffer_writer) [] rs = (None, bs) /\
    yields (next (runes_gen string_reader)) (ofIter (runes_init bs)) rs EOI.
Proof. exact (rune_round_trip rs). Qed.
Print Assumptions C53_rune_round_trip.

Example C53_nonvacuous : Forall scalar [0; 1114111; 55295; 57344].
Proof. repeat constructor; unfold scalar; lia. Qed.

(** C63. Lines written (with LF, or CR LF on Windows) and read back, empty lines included. *)
Theorem C63_line_round_trip eol (ls : list (list Z)) :
  (eol = [10] \/ eol = [13; 10]) -> Forall (fun l => Forall scalar l /\ plain l) ls ->
  exists bs, write (line_writer eol buffer_writer) [] (map (flat_map encode) ls) = (None, bs) /\
    yields (next (lines_gen (runes_gen string_reader))) (ofIter (lines_init (runes_init bs))) ls EOI.
Proof. exact (line_round_trip eol ls). Qed.
Print Assumptions C63_line_round_trip.

Example C63_nonvacuous : Forall (fun l => Forall scalar l /\ plain l) [[233; 97]; []; [98]].
Proof.
  repeat constructor; unfold scalar; try lia;
    repeat (match goal with |- ~ In _ _ => intros X; simpl in X; repeat destruct X as [X|X]; try discriminate; auto end).
Qed.

(** C63. The four writers over any io.Writer [dst]: the bytes a value stands for go to one call of [dst]; its error is returned, and
    a short write without an error becomes an error. *)
Theorem C63_writers {S} :
  @writes_through S Z byte_writer (fun b => [b]) /\
  @writes_through S Z rune_writer string_of_rune /\
  @writes_through S (list Z) string_writer (fun v => v) /\
  forall eol, @writes_through S (list Z) (line_writer eol) (fun v => v ++ eol).
Proof.
  assert (W : forall (dst : iowriter S) s p n s1,
    (forall e, dst s p = ((n, Some e), s1) -> write_bytes dst s p = (Some e, s1)) /\
    (dst s p = ((n, None), s1) -> n = Z.of_nat (length p) -> write_bytes dst s p = (None, s1)) /\
    (dst s p = ((n, None), s1) -> 0 <= n < Z.of_nat (length p) -> write_bytes dst s p = (Some errNotWritten, s1))).
  { intros dst s p n s1. unfold write_bytes. split; [|split].
    - intros e ->. reflexivity.
    - intros -> ->. rewrite Z.ltb_irrefl. reflexivity.
    - intros -> H. rewrite (proj2 (Z.ltb_lt _ _)) by lia. reflexivity. }
  split; [|split; [|split]].
  - intros dst s v n s1. unfold byte_writer. split; [|split].
    + intros e ->. reflexivity.
    + intros -> ->. reflexivity.
    + intros -> H. cbn [length] in H. rewrite (proj2 (Z.eqb_eq n 0)) by lia. reflexivity.
  - intros dst s v n s1. apply W.
  - intros dst s v n s1. apply W.
  - intros eol dst s v n s1. apply W.
Qed.
Print Assumptions C63_writers.
(** ... where a rune stands for its UTF-8 encoding, and a number that is no Unicode scalar value for that of U+FFFD. *)
Theorem C63_rune_text r : (scalar r -> string_of_rune r = encode r) /\ (~ scalar r -> string_of_rune r = [239; 191; 189]).
Proof.
  unfold string_of_rune. split; intros H; [rewrite is_scalar_spec by exact H; reflexivity|].
  replace (is_scalar r) with false; [reflexivity|]. symmetry. apply Bool.not_true_iff_false. intros X. apply H. unfold is_scalar in X. unfold scalar. lia.
Qed.
Print Assumptions C63_rune_text.

(** C54. ErrorReader, one byte at a time (as the iterators of this library read): the input, then the error, ever
    after. *)
Theorem C54_error_reader_bytes input spare e k :
  (k <= length input)%nat ->
  error_reads input spare e 0 (repeat 1%nat k) = Done (map (fun b => ([b], None)) (firstn k input), k).
Proof. exact (error_reads_one input spare e k). Qed.
Print Assumptions C54_error_reader_bytes.

Theorem C54_error_reader_end input spare e pos n : (length input <= pos)%nat ->
  error_read input spare e pos n = Done (([], Some e), pos).
Proof. exact (error_read_end input spare e pos n). Qed.
Print Assumptions C54_error_reader_end.

(** C54. Reads of any size, exactly: right while they stay inside the input, a panic beyond its capacity. *)
Theorem C54_error_reader_exact input spare e pos n :
  (pos < length input)%nat ->
  ((pos + Nat.min (length input) n <= length input)%nat ->
     error_read input spare e pos n = Done ((firstn n (skipn pos input), None), (pos + Nat.min (length input) n)%nat)) /\
  ((length input + length spare < pos + Nat.min (length input) n)%nat -> error_read input spare e pos n = Panicked).
Proof. exact (error_read_exact input spare e pos n). Qed.
Print Assumptions C54_error_reader_exact.

(** C54 finding: "if a call asks for more bytes than remain, the result is (num remaining bytes, nil)" fails: it
    panics, or, with spare capacity, returns bytes that are not part of the input. *)
Theorem C54_error_reader_remaining_refuted :
  error_reads [1; 2; 3] [] (UserErr 1) 0 [2; 2]%nat = Panicked /\
  error_reads [1; 2; 3] [99] (UserErr 1) 0 [2; 2]%nat = Done ([([1; 2], None); ([3; 99], None)], 4%nat).
Proof. split; reflexivity. Qed.
Print Assumptions C54_error_reader_remaining_refuted.

(** C54. ErrorWriter: over any sequence of writes the output is the first [count] bytes written ... *)
Theorem C54_error_writer_output count e out ps :
  0 <= count -> Z.of_nat (length out) <= count ->
  snd (error_writes count e out ps) = firstn (Z.to_nat count) (out ++ concat ps).
Proof. exact (error_writes_output count e out ps). Qed.
Print Assumptions C54_error_writer_output.

(** ... and each write reports the bytes it accepted, or (0, err) once the output is full. *)
Theorem C54_error_writer_exact count e out p :
  0 <= count -> Z.of_nat (length out) <= count ->
  error_write count e out p =
  (if Z.of_nat (length out) =? count then (0, Some e) else (Z.min (Z.of_nat (length p)) (count - Z.of_nat (length out)), None),
   firstn (Z.to_nat count) (out ++ p)).
Proof. exact (error_write_exact count e out p). Qed.
Print Assumptions C54_error_writer_exact.

Example C54_nonvacuous : error_writes 3 (UserErr 1) [] [[1; 2]; [3; 4]; [5]]
  = ([(2, None); (1, None); (0, Some (UserErr 1))], [1; 2; 3]).
Proof. reflexivity. Qed.
