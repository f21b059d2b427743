(** C101: content negotiation on the headers of a request. *)
From Coq Require Import String.
From Verif Require Import Base Iter IterSpec SliceMem Readers Union Json JsonLex JsonParse JsonSpec Rest Regex Csv CsvSpec PropsCsv PropsJson ReaderSpec Content ContentSpec.
From Coq Require Import ZifyBool.
Open Scope Z_scope.

Lemma streqb a b : str_eqb a b = true <-> a = b.
Proof. unfold str_eqb. destruct (list_eq_dec Z.eq_dec a b); split; congruence. Qed.
Lemma streqb_refl a : str_eqb a a = true. Proof. apply streqb; auto. Qed.

Lemma in_punct c : existsb (Z.eqb c) (text "!#$%&'*+-.^_`|~") = true -> lower c = c /\ upper_letter c = false /\ lower_letter c = false.
Proof.
  rewrite existsb_exists. intros (x & I & E). apply Z.eqb_eq in E. subst x.
  assert (F : Forall (fun c => lower c = c /\ upper_letter c = false /\ lower_letter c = false) (text "!#$%&'*+-.^_`|~"))
    by (repeat constructor).
  rewrite Forall_forall in F. auto.
Qed.
Lemma lower_lower c : lower (lower c) = lower c.
Proof. unfold lower. destruct ((65 <=? c) && (c <=? 90)) eqn:E; [|rewrite E; auto]. destruct ((65 <=? c + 32) && (c + 32 <=? 90)) eqn:F; lia. Qed.
Lemma token_lower c : token_byte (lower c) = token_byte c.
Proof.
  unfold lower. destruct ((65 <=? c) && (c <=? 90)) eqn:E; auto. unfold token_byte.
  assert (lower_letter (c + 32) = true) as -> by (unfold lower_letter; lia).
  assert (upper_letter c = true) as -> by (unfold upper_letter; lia). destruct (lower_letter c); auto.
Qed.
Lemma tokens_lower s : forallb token_byte (map lower s) = forallb token_byte s.
Proof. induction s; cbn; [auto|]. rewrite token_lower, IHs. auto. Qed.
Lemma shift_up c : 65 <= c <= 90 -> lower_letter (c + 32) = true /\ upper_letter (c + 32) = false /\ lower_letter c = false /\ upper_letter c = true.
Proof. unfold lower_letter, upper_letter. lia. Qed.
Lemma shift_down c : 97 <= c <= 122 -> lower_letter c = true /\ upper_letter c = false.
Proof. unfold lower_letter, upper_letter. lia. Qed.
Lemma letter_cases c : (65 <= c <= 90) \/ (97 <= c <= 122) \/ (lower_letter c = false /\ upper_letter c = false /\ lower c = c).
Proof.
  destruct (Z_le_dec 65 c); [destruct (Z_le_dec c 90); [left; lia|]|].
  - destruct (Z_le_dec 97 c); [destruct (Z_le_dec c 122); [right; left; lia|]|]; right; right; unfold lower_letter, upper_letter, lower;
      (destruct (Z.leb_spec 65 c); [|lia]); (destruct (Z.leb_spec c 90); [lia|]); cbn [andb]; lia.
  - right; right. unfold lower_letter, upper_letter, lower. (destruct (Z.leb_spec 65 c); [lia|]). cbn [andb]. lia.
Qed.
Lemma lower_up c : 65 <= c <= 90 -> lower c = c + 32.
Proof. intros. unfold lower. destruct (Z.leb_spec 65 c); [|lia]. destruct (Z.leb_spec c 90); [auto|lia]. Qed.
Lemma lower_down c : 97 <= c -> lower c = c.
Proof. intros. unfold lower. destruct (Z.leb_spec 65 c); [|lia]. destruct (Z.leb_spec c 90); [lia|auto]. Qed.
Lemma canon_loop_lower s : forall u, canon_loop u (map lower s) = canon_loop u s.
Proof.
  induction s as [|c r IH]; intros u; cbn [canon_loop map]; [auto|]. rewrite IH. destruct (letter_cases c) as [C|[C|(C1 & C2 & ->)]]; [|rewrite lower_down by lia; auto|auto].
  rewrite lower_up by auto. destruct (shift_up c C) as (-> & -> & -> & ->).
  replace (c + 32 =? 45) with (c =? 45) by (destruct (Z.eqb_spec c 45), (Z.eqb_spec (c + 32) 45); lia). f_equal. destruct u; cbn [negb andb]; lia.
Qed.
Lemma lower_canon_loop s : forall u, map lower (canon_loop u s) = map lower s.
Proof.
  induction s as [|c r IH]; intros u; cbn [canon_loop map]; [auto|]. rewrite IH. f_equal. destruct (letter_cases c) as [C|[C|(C1 & C2 & C3)]].
  - destruct (shift_up c C) as (_ & _ & -> & ->). destruct u; cbn [negb andb]; auto. rewrite (lower_up c), lower_down by lia. auto.
  - destruct (shift_down c C) as (-> & ->). destruct u; cbn [negb andb]; auto. rewrite (lower_down c), lower_up by lia. lia.
  - rewrite C1, C2, !andb_false_r. auto.
Qed.
(** Two keys have the same canonical form exactly when they are equal up to the case of letters (keys with a character outside
    tokens: when they are equal). *)
Lemma canonical_same a b : forallb token_byte b = true -> (canonical_key a = canonical_key b <-> same_name a b).
Proof.
  intros T. unfold canonical_key, same_name. rewrite T. split; intros H.
  - apply (f_equal (map lower)) in H. rewrite lower_canon_loop in H. destruct (forallb token_byte a); auto. rewrite lower_canon_loop in H. auto.
  - assert (TA : forallb token_byte a = true) by (rewrite <- tokens_lower, H, tokens_lower; auto). rewrite TA.
    rewrite <- (canon_loop_lower a), H, canon_loop_lower. auto.
Qed.

Lemma header_of_get lines key : forall h,
  fold_left header_add lines h key = h key ++ map snd (filter (fun l => str_eqb key (canonical_key (fst l))) lines).
Proof.
  induction lines as [|l r IH]; intros h; cbn [fold_left filter map]; [rewrite app_nil_r; auto|]. rewrite IH. unfold header_add at 1.
  destruct (str_eqb key (canonical_key (fst l))); [cbn [map]; rewrite <- app_assoc|]; auto.
Qed.

Lemma first_header_skip key n v r x : ~ same_name n key -> first_header key r x -> first_header key ((n, v) :: r) x.
Proof.
  intros N [(b & n' & a & -> & S1 & F)|[E' F]].
  - left. exists ((n, v) :: b), n', a. auto.
  - right. auto.
Qed.
Lemma get_first lines key : forallb token_byte key = true -> first_header key lines (header_get (header_of lines) key).
Proof.
  intros T. unfold header_get, header_of. rewrite header_of_get. unfold no_header. cbn [app].
  induction lines as [|[n v] r IH]; cbn [filter map fst].
  - right. auto.
  - destruct (str_eqb (canonical_key key) (canonical_key n)) eqn:E.
    + cbn [map snd]. left. exists [], n, r. split; [auto|]. split; [|constructor]. apply canonical_same; auto. apply streqb in E. auto.
    + assert (N : ~ same_name n key).
      { intros H. apply (canonical_same n key T) in H. rewrite H, streqb_refl in E. discriminate. }
      apply first_header_skip; auto.
Qed.

Lemma first_header_unique key lines a b : first_header key lines a -> first_header key lines b -> a = b.
Proof.
  revert a b. induction lines as [|[n v] r IH]; intros a b A B.
  - destruct A as [(p & n & q & E & _)|[-> _]]; [destruct p; discriminate|]. destruct B as [(p & n & q & E & _)|[-> _]]; [destruct p; discriminate|auto].
  - assert (K : forall x, first_header key ((n, v) :: r) x -> (same_name n key /\ x = v) \/ (~ same_name n key /\ first_header key r x)).
    { intros x [(p & n' & q & E & S1 & F)|[-> F]].
      - destruct p as [|l p]; cbn in E; [injection E as <- <- <-; left; auto|].
        injection E as <- ->. inversion F; subst. right. split; [exact H1|]. left. exists p, n', q. auto.
      - inversion F; subst. right. split; auto. right. auto. }
    destruct (K _ A) as [[A1 ->]|[A1 A2]], (K _ B) as [[B1 ->]|[B1 B2]]; try tauto. eauto.
Qed.

(** Whatever the header lines of the request, Get answers the first one with that name, in whatever case it was sent. *)
Theorem C101_header lines key v : forallb token_byte key = true -> (header_get (header_of lines) key = v <-> first_header key lines v).
Proof. intros T. split; [intros <-; apply get_first; auto|]. intros H. eapply first_header_unique; [apply get_first; auto|exact H]. Qed.
Print Assumptions C101_header.

(** NegotiateJSONContent gives an iterator exactly when the first Content-Type line is application/json, to the letter; that
    iterator delivers the document of the body as Parse does. Otherwise it gives nil. *)
Theorem C101_json {S} (rd : reader S) lines s body e : reads rd s body e ->
  (first_header (text "Content-Type") lines (text "application/json") ->
    exists mk it vs e', NegotiateJSONContent rd (header_of lines) s = Some mk /\ settles mk it /\
      yields (doc_next (tok_next rd) unread) it vs e' /\
      ((e' <> EOI /\ settles (Parse rd s) (zv, Some e')) \/
       (e' = EOI /\ exists v, settles (Parse rd s) (v, None) /\ ((typ_of v = TObject /\ vs = [v]) \/ v = mkV TArray (Union.of4u vs))))) /\
  (~ first_header (text "Content-Type") lines (text "application/json") -> NegotiateJSONContent rd (header_of lines) s = None).
Proof.
  change (text "Content-Type") with contentType. change (text "application/json") with jsonContent.
  intros R. unfold NegotiateJSONContent, negotiate_json. split.
  - intros H. apply C101_header in H; [|reflexivity]. rewrite H, streqb_refl. destruct (C71_iterate rd s body e R) as (it & vs & e' & A & B & C).
    exists (Iterate rd s), it, vs, e'. auto.
  - intros H. destruct (str_eqb (header_get (header_of lines) contentType) jsonContent) eqn:E; auto. exfalso. apply H. apply streqb in E.
    apply C101_header; auto.
Qed.
Print Assumptions C101_json.

(** NegotiateCSVContent likewise for text/csv: the rows of the body. *)
Theorem C101_csv {S T} (parser : S -> (option (list T) * option err) * S) lines m s rs s2 s3 r :
  delivers parser s rs s2 -> parser s2 = ((r, Some EOF), s3) ->
  (first_header (text "Content-Type") lines (text "text/csv") ->
    exists it0 hs it', NegotiateCSVContent (OfCSV m) (header_of lines) s = Some it0 /\
      emits_rows mem_it (next (csv_gen parser)) it0 hs rs it' /\ stuck (next (csv_gen parser)) it' EOI) /\
  (~ first_header (text "Content-Type") lines (text "text/csv") -> NegotiateCSVContent (OfCSV m) (header_of lines) s = None).
Proof.
  change (text "Content-Type") with contentType. change (text "text/csv") with csvContent.
  intros D P. unfold NegotiateCSVContent, negotiate_csv, OfCSV. split.
  - intros H. apply C101_header in H; [|reflexivity]. rewrite H, streqb_refl. destruct (C88_rows parser m s rs s2 s3 r D P) as (hs & it' & A & B).
    eexists _, hs, it'. split; [reflexivity|]. auto.
  - intros H. destruct (str_eqb (header_get (header_of lines) contentType) csvContent) eqn:E; auto. exfalso. apply H. apply streqb in E.
    apply C101_header; auto.
Qed.
Print Assumptions C101_csv.

(** AcceptGzip: the body as it is unless the first Accept-Encoding line is gzip, to the letter; then a decompressor for a body
    that starts with a gzip header, and a panic for any other body. *)
Theorem C101_gzip optional lines body :
  (~ first_header (text "Accept-Encoding") lines (text "gzip") -> AcceptGzip optional (header_of lines) body = Done (Plain body)) /\
  (first_header (text "Accept-Encoding") lines (text "gzip") ->
    (forall flags six rest compressed, body = 31 :: 139 :: 8 :: flags :: six ++ rest -> List.length six = 6%nat -> optional flags rest = Some compressed ->
       AcceptGzip optional (header_of lines) body = Done (Gunzip compressed)) /\
    ((~ exists flags six rest compressed, body = 31 :: 139 :: 8 :: flags :: six ++ rest /\ List.length six = 6%nat /\ optional flags rest = Some compressed) ->
       AcceptGzip optional (header_of lines) body = Panicked)).
Proof.
  change (text "Accept-Encoding") with acceptEncoding. change (text "gzip") with gzipEncoding.
  unfold AcceptGzip. split; [|intros H; split].
  - intros H. destruct (str_eqb (header_get (header_of lines) acceptEncoding) gzipEncoding) eqn:E; auto. exfalso. apply H. apply streqb in E.
    apply C101_header; auto.
  - intros flags six rest compressed -> L O. apply C101_header in H; [|reflexivity]. rewrite H, streqb_refl. unfold new_gzip.
    destruct (Nat.ltb_spec (List.length (31 :: 139 :: 8 :: flags :: six ++ rest)) 10); [cbn in H0; rewrite app_length in H0; lia|].
    cbn [Z.eqb Pos.eqb andb]. replace (skipn 6 (six ++ rest)) with rest; [rewrite O; auto|]. rewrite <- L, skipn_app, skipn_all, Nat.sub_diag. reflexivity.
  - intros N. apply C101_header in H; [|reflexivity]. rewrite H, streqb_refl. unfold new_gzip.
    destruct (Nat.ltb_spec (List.length body) 10) as [L|L]; auto. destruct body as [|a [|b [|c [|flags r]]]]; auto.
    destruct ((a =? 31) && (b =? 139) && (c =? 8)) eqn:E; auto. destruct (optional flags (skipn 6 r)) as [z|] eqn:O; auto. exfalso. apply N.
    exists flags, (firstn 6 r), (skipn 6 r), z. rewrite firstn_skipn. split; [repeat f_equal; lia|]. split; auto. rewrite firstn_length. cbn in L. lia.
Qed.
Print Assumptions C101_gzip.

(** Findings.  A content type with parameters, or in other letters, is not recognised: the function gives nil. A client that
    merely says that it accepts a compressed response makes AcceptGzip panic if its body is not compressed. *)
Theorem C101_parameters_refuted {S} (rd : reader S) s v : In v [text "application/json; charset=utf-8"; text "Application/JSON"; text "application/json "] ->
  NegotiateJSONContent rd (header_of [(text "Content-Type", v)]) s = None.
Proof. intros [<-|[<-|[<-|[]]]]; reflexivity. Qed.
Print Assumptions C101_parameters_refuted.
Theorem C101_uncompressed_refuted optional body : (match body with 31 :: _ => False | _ => True end) ->
  AcceptGzip optional (header_of [(text "Accept-Encoding", text "gzip")]) body = Panicked.
Proof.
  intros H. apply C101_gzip.
  - apply C101_header; reflexivity.
  - intros (f & six & rest & c & -> & _). exact H.
Qed.
Print Assumptions C101_uncompressed_refuted.

Example C101_nonvacuous :
  first_header (text "Content-Type") [(text "accept", text "x"); (text "CONTENT-type", (text "application/json")); (text "Content-Type", (text "text/csv"))] (text "application/json") /\
  header_get (header_of [(text "accept", text "x"); (text "CONTENT-type", (text "application/json")); (text "Content-Type", (text "text/csv"))]) (text "content-type") = (text "application/json") /\
  canonical_key (text "x-b3 trace") = text "x-b3 trace" /\ canonical_key (text "x-b3-TRACE") = text "X-B3-Trace".
Proof. split; [apply C101_header; reflexivity|]. repeat split; reflexivity. Qed.
