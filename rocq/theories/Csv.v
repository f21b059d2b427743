(** Model of iter/gen.go:412-438, CSVIterGen, and of rest/content.go.
    Of encoding/csv is modelled: Reader.Read with ReuseRecord, on top of any source of records (the parser): a record, an error, or
    both (the error for a wrong number of fields comes with the record).  The record is written over the previous one when
    that has the capacity, otherwise into a new array; after a Read without a record the next one is a new array. *)
From Coq Require Import List ZArith.
From Verif Require Import Base Iter SliceMem.
Import ListNotations.
Open Scope nat_scope.
Open Scope go_scope.

Section Csv.
  Context {S T : Type} {ZT : Zero T}.   (* T: strings *)
  Variable parser : S -> (option (list T) * option err) * S.

  (** the captured variables: done, err, csvRdr.lastRecord; then the memory and the state of the parser *)
  Record csv_state : Type := CsvState { c_done : bool; c_err : option err; c_last : slice; c_mem : mem T; c_src : S }.

  (** encoding/csv, Reader.Read with ReuseRecord *)
  Definition csv_put (m : mem T) (last : slice) (rec : list T) : mem T * slice :=
    let n := length rec in
    if scap last <? n then (m ++ [rec], Some (Hdr (length m) 0 n n))
    else match last with
         | None => (m, None)
         | Some h => (upd m (arr h) (write_at (array m (arr h)) (off h) rec), Some (Hdr (arr h) (off h) n (cap h)))
         end.
  Definition csv_read (m : mem T) (last : slice) (s : S) : (slice * option err) * (mem T * S) :=
    let '((r, e), s') := parser s in
    match r with
    | Some rec => let '(m', line) := csv_put m last rec in ((line, e), (m', s'))
    | None => ((None, e), (m, s'))
    end.

  (** the call CSVIterGen(src) *)
  Definition csv_new (src_nil : bool) (m : mem T) (s : S) : csv_state := CsvState src_nil (Some EOI) None m s.
  (** the iterating function *)
  Definition csv_gen : stepfn csv_state slice := fun _ st =>
    if c_done st then Done ((None, c_err st), st) else
    let '((line, e), (m', s')) := csv_read (c_mem st) (c_last st) (c_src st) in
    let last' := line in
    let e := match e with Some EOF => Some EOI | _ => e end in
    match e with
    | Some EOI => Done ((None, e), CsvState true e last' m' s')
    | _ => Done ((line, e), CsvState false e last' m' s')
    end.
End Csv.
Arguments csv_state : clear implicits.

(** rest/content.go:26-52.  Header.Get answers the text of a header, [] when it is absent. *)
Section Content.
  Variable Text : Type.
  Variable text_eqb : Text -> Text -> bool.
  Variables gzip csv json : Text.   (* "gzip", "text/csv", "application/json" *)
  Context {R It Jt : Type}.
  Variable new_gzip : R -> outcome R.   (* MustValue(gzip.NewReader(body)): panics on an error *)
  Variables (of_csv : R -> It) (iterate : R -> Jt).
  Definition accept_gzip (accept_encoding : Text) (body : R) : outcome R :=
    if text_eqb accept_encoding gzip then new_gzip body else Done body.
  Definition negotiate_csv (content_type : Text) (body : R) : option It :=
    if text_eqb content_type csv then Some (of_csv body) else None.
  Definition negotiate_json (content_type : Text) (body : R) : option Jt :=
    if text_eqb content_type json then Some (iterate body) else None.
End Content.
