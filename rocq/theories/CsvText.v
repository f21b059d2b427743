(** Model of the part of Go's encoding/csv that iter/gen.go:412-438 (CSVIterGen) uses, on texts: Reader.readLine, Reader.readRecord, with
    the settings of csv.NewReader (Comma ',', no Comment, LazyQuotes and TrimLeadingSpace off, FieldsPerRecord 0), which CSVIterGen does not
    change.  It instantiates the abstract parser of Csv.v.
    Texts are lists of bytes.  The source delivers the whole text and then the error e0 for ever (io.EOF at the normal end); the buffering
    of bufio.Reader is not modelled.  A *csv.ParseError is represented by the error it wraps, without the positions.
    The loops run with fuel; CsvTextProofs shows that the fuel given by csv_parse is never used up. *)
From Coq Require Import List ZArith Bool.
From Verif Require Import Base.
Import ListNotations.
Open Scope Z_scope.

Notation bytes := (list Z).
Definition LF : Z := 10.
Definition CR : Z := 13.
Definition DQ : Z := 34.
Definition COMMA : Z := 44.

(** encoding/csv: the errors *)
Definition ErrBareQuote : err := UserErr 1001.
Definition ErrQuote : err := UserErr 1002.
Definition ErrFieldCount : err := UserErr 1003.
Definition out_of_fuel : err := UserErr 1000.

(** bytes.IndexByte / bufio.Reader.ReadSlice: what precedes the first c, and what follows it *)
Fixpoint cut (c : Z) (l : bytes) : bytes * option bytes :=
  match l with
  | [] => ([], None)
  | x :: l => if x =? c then ([], Some l) else let '(p, r) := cut c l in (x :: p, r)
  end.
(** a single carriage return at the end is dropped *)
Fixpoint chop_cr (l : bytes) : bytes :=
  match l with [] => [] | [x] => if x =? CR then [] else [x] | x :: l => x :: chop_cr l end.
(** a line feed at the end is dropped: field[:len(field)-lengthNL(field)] *)
Fixpoint chop_lf (l : bytes) : bytes :=
  match l with [] => [] | [x] => if x =? LF then [] else [x] | x :: l => x :: chop_lf l end.
(** len(line) == lengthNL(line) *)
Definition is_nl (l : bytes) : bool := match l with [] => true | [x] => x =? LF | _ => false end.
Definition has (c : Z) (l : bytes) : bool := existsb (Z.eqb c) l.

Section Reader.
  Variable e0 : err.   (* what the source answers at the end of the text *)

  (** encoding/csv, Reader.readLine: the line, the error, the rest of the text *)
  Definition read_line (txt : bytes) : (bytes * option err) * bytes :=
    match cut LF txt with
    | (l, Some rest) => ((chop_cr l ++ [LF], None), rest)
    | (l, None) =>
        match l, e0 with
        | [], _ => (([], Some e0), [])
        | _, EOF => ((chop_cr l, None), [])
        | _, _ => ((l, Some e0), [])
        end
    end.

  (** encoding/csv, Reader.readRecord, the loop that skips empty lines *)
  Fixpoint skip_blank (fuel : nat) (txt : bytes) : (bytes * option err) * bytes :=
    match fuel with
    | O => (([], Some out_of_fuel), txt)
    | S fuel =>
        let '((line, er), rest) := read_line txt in
        match er with
        | None => if is_nl line then skip_blank fuel rest else ((line, er), rest)
        | Some _ => ((line, er), rest)
        end
    end.

  (** encoding/csv, Reader.readRecord, the loops over the fields: done are the finished fields; cur is None at the start of a field and
      Some buf within a quoted field.  The result: the fields, the error, the rest of the text. *)
  Fixpoint read_fields (fuel : nat) (line : bytes) (er : option err) (txt : bytes) (done : list bytes) (cur : option bytes)
      : (list bytes * option err) * bytes :=
    match fuel with
    | O => ((done, Some out_of_fuel), txt)
    | S fuel =>
        match cur with
        | None =>
            match line with
            | 34 :: line => read_fields fuel line er txt done (Some [])
            | _ =>
                match cut COMMA line with
                | (f, Some rest) => if has DQ f then ((done, Some ErrBareQuote), txt) else read_fields fuel rest er txt (done ++ [f]) None
                | (_, None) => if has DQ (chop_lf line) then ((done, Some ErrBareQuote), txt) else ((done ++ [chop_lf line], er), txt)
                end
            end
        | Some buf =>
            match cut DQ line with
            | (p, Some rest) =>
                match rest with
                | 34 :: rest => read_fields fuel rest er txt done (Some (buf ++ p ++ [DQ]))
                | 44 :: rest => read_fields fuel rest er txt (done ++ [buf ++ p]) None
                | _ => if is_nl rest then ((done ++ [buf ++ p], er), txt) else ((done, Some ErrQuote), txt)
                end
            | (_, None) =>
                match line with
                | _ :: _ =>
                    match er with
                    | Some _ => ((done, er), txt)
                    | None =>
                        let '((line', er'), txt') := read_line txt in
                        read_fields fuel line' (match er' with Some EOF => None | _ => er' end) txt' done (Some (buf ++ line))
                    end
                | [] =>
                    match er with
                    | None => ((done, Some ErrQuote), txt)
                    | Some _ => ((done ++ [buf], er), txt)
                    end
                end
            end
        end
    end.

  (** encoding/csv, Reader.readRecord: the state is FieldsPerRecord and the rest of the text *)
  Definition csv_parse (st : nat * bytes) : (option (list bytes) * option err) * (nat * bytes) :=
    let '(fpr, txt) := st in
    match skip_blank (S (length txt)) txt with
    | ((_, Some EOF), rest) => ((None, Some EOF), (fpr, rest))
    | ((line, er), rest) =>
        let '((flds, e), rest') := read_fields (S (length line + length rest)) line er rest [] None in
        match fpr with
        | O => ((Some flds, e), (length flds, rest'))
        | _ => ((Some flds, match e with None => if Nat.eqb (length flds) fpr then None else Some ErrFieldCount | _ => e end), (fpr, rest'))
        end
    end.
End Reader.
