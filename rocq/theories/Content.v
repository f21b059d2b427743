(** Model of rest/content.go on requests with headers: the part of net/http.Header and net/textproto that it uses, and
    gzip.NewReader as far as accepting or rejecting the body.  (Csv.v has the three functions on the text of a header.) *)
From Coq Require Import String.
From Verif Require Import Base Iter Readers Union Json JsonLex JsonParse Rest Regex Csv.
Open Scope Z_scope.

(** net/textproto, validHeaderFieldByte: the characters of a token (RFC 7230). *)
Definition lower_letter (c : Z) : bool := (97 <=? c) && (c <=? 122).
Definition upper_letter (c : Z) : bool := (65 <=? c) && (c <=? 90).
Definition token_byte (c : Z) : bool :=
  lower_letter c || upper_letter c || ((48 <=? c) && (c <=? 57)) || existsb (Z.eqb c) (text "!#$%&'*+-.^_`|~").

(** net/textproto, canonicalMIMEHeaderKey: a key with another byte is left alone; otherwise the first letter and the letters
    after a hyphen become upper case, the others lower case. *)
Fixpoint canon_loop (upper : bool) (s : str) : str :=
  match s with
  | [] => []
  | c :: r => (if upper && lower_letter c then c - 32 else if negb upper && upper_letter c then c + 32 else c) :: canon_loop (c =? 45) r
  end.
Definition canonical_key (s : str) : str := if forallb token_byte s then canon_loop true s else s.

(** net/http.Header, a map[string][]string; a missing key and an empty slice cannot be told apart by Get. *)
Definition header := str -> list str.
Definition no_header : header := fun _ => [].
(** Header.Add, by which the server stores the header lines of a request in the order of arrival. *)
Definition header_add (h : header) (line : str * str) : header :=
  fun k => if str_eqb k (canonical_key (fst line)) then h k ++ [snd line] else h k.
Definition header_of (lines : list (str * str)) : header := fold_left header_add lines no_header.
(** Header.Get: the first value, "" when there is none. *)
Definition header_get (h : header) (key : str) : str := match h (canonical_key key) with v :: _ => v | [] => [] end.

(** rest/content.go:16-23. *)
Definition acceptEncoding := text "Accept-Encoding".
Definition gzipEncoding := text "gzip".
Definition contentType := text "Content-Type".
Definition csvContent := text "text/csv".
Definition jsonContent := text "application/json".

(** compress/gzip, NewReader: ten bytes of header (io.ReadFull), the three fixed ones compared; [optional] reads the optional
    parts of the header from the flags and the rest of the body.  None: an error. *)
Definition new_gzip (optional : Z -> list Z -> option (list Z)) (body : list Z) : option (list Z) :=
  if (List.length body <? 10)%nat then None
  else match body with
       | a :: b :: c :: flags :: r => if (a =? 31) && (b =? 139) && (c =? 8) then optional flags (skipn 6 r) else None
       | _ => None
       end.
(** The io.Reader that AcceptGzip returns: the body as it is, or the decompressor of the rest after the gzip header. *)
Inductive body_reader := Plain (body : list Z) | Gunzip (rest : list Z).

(** rest/content.go:28-34, AcceptGzip; MustValue panics on an error. *)
Definition AcceptGzip (optional : Z -> list Z -> option (list Z)) (h : header) (body : list Z) : outcome body_reader :=
  if str_eqb (header_get h acceptEncoding) gzipEncoding then
    match new_gzip optional body with Some r => Done (Gunzip r) | None => Panicked end
  else Done (Plain body).

(** iter/iter.go:138-140, OfCSV on a non-nil reader; [m] is the memory. *)
Definition OfCSV {S T} (m : SliceMem.mem T) (body : S) : impl (csv_state S T) SliceMem.slice := ofIter (csv_new false m body).
(** rest/content.go:37-43, NegotiateCSVContent (None: nil); [of_csv] is [OfCSV]. *)
Definition NegotiateCSVContent {R It} (of_csv : R -> It) (h : header) (body : R) : option It :=
  negotiate_csv str str_eqb csvContent of_csv (header_get h contentType) body.
(** rest/content.go:46-52, NegotiateJSONContent. *)
Definition NegotiateJSONContent {S} (rd : reader S) (h : header) (body : S) : option (nat -> outcome (doc_iter (impl (impl (bool * option err * S) Z) token))) :=
  negotiate_json str str_eqb jsonContent (Iterate rd) (header_get h contentType) body.
