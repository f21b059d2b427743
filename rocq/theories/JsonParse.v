(** Model of encoding/json/parse/parse.go over any iterator of tokens. *)
From Verif Require Import Base GoMap Iter IterGen Readers Stream Rest Json JsonLex.
Open Scope go_scope.
Open Scope nat_scope.

(** encoding/json/parse/parse.go:16-27, the errors, told apart by number. *)
Definition errObjectRequiresKeyOrBrace := UserErr 331.
Definition errObjectDuplicateKey := UserErr 332.
Definition errObjectKeyRequiresColon := UserErr 333.
Definition errObjectKeyRequiresValue := UserErr 334.
Definition errObjectKeyValueRequiresCommaOrBrace := UserErr 335.
Definition errArrayRequiresValue := UserErr 336.
Definition errArrayRequiresValueOrBracket := UserErr 337.
Definition errArrayRequiresCommaOrBracket := UserErr 338.
Definition errEmptyDocument := UserErr 339.
Definition errObjectOrArrayRequired := UserErr 340.

Section Parse.
  Context {I : Type}.
  Variable nx : stepfn I token.       (* it.Next *)
  Variable un : I -> token -> I.      (* it.Unread *)

  (** encoding/json/parse/parse.go:86-158, the loop of parseObject; [pv] is parseValue. *)
  Fixpoint obj_loop (pv : stepfn I value) (fuel : nat) (object : list (str * value)) (i : I) : outcome (ret value * I) :=
    match fuel with
    | 0 => OutOfFuel
    | S f =>
        let! (r, i1) := nx f i in
        match r with
        | (_, Some e) => Done ((zv, Some (eoi_or errObjectRequiresKeyOrBrace e)), i1)
        | (key, None) =>
            match ttyp key with
            | tCBrace => Done (mapToValue object, i1)
            | tString =>
                match mget str_eqb object (tval key) with
                | Some _ => Done ((zv, Some errObjectDuplicateKey), i1)
                | None =>
                    let! (r, i2) := nx f i1 in
                    match r with
                    | (_, Some e) => Done ((zv, Some (eoi_or errObjectKeyRequiresColon e)), i2)
                    | (colon, None) =>
                        match ttyp colon with
                        | tColon =>
                            let! (r, i3) := nx f i2 in
                            match r with
                            | (_, Some e) => Done ((zv, Some (eoi_or errObjectKeyRequiresValue e)), i3)
                            | (valueTok, None) =>
                                let! (r, i4) := pv f (un i3 valueTok) in
                                match r with
                                | (_, Some e) => Done ((zv, Some e), i4)
                                | (value, None) =>
                                    let object' := mset str_eqb object (tval key) value in
                                    let! (r, i5) := nx f i4 in
                                    match r with
                                    | (_, Some e) => Done ((zv, Some (eoi_or errObjectKeyValueRequiresCommaOrBrace e)), i5)
                                    | (commaBrace, None) =>
                                        match ttyp commaBrace with
                                        | tComma => obj_loop pv f object' i5
                                        | tCBrace => Done (mapToValue object', i5)
                                        | _ => Done ((zv, Some errObjectKeyValueRequiresCommaOrBrace), i5)
                                        end
                                    end
                                end
                            end
                        | _ => Done ((zv, Some errObjectKeyRequiresColon), i2)
                        end
                    end
                end
            | _ => Done ((zv, Some errObjectRequiresKeyOrBrace), i1)
            end
        end
    end.

  (** encoding/json/parse/parse.go:69-163, parseObject. *)
  Definition parse_object (pv : stepfn I value) : stepfn I value := fun fuel i =>
    let! (_, i1) := nx fuel i in
    obj_loop pv fuel [] i1.

  (** encoding/json/parse/parse.go:180-246, the function parseArray passes to OfIter.  State: first, and the token iterator. *)
  Definition array_gen (pv : stepfn I value) : stepfn (bool * I) value := fun fuel st =>
    let '(first, i) := st in
    if (first : bool) then
      let! (_, i1) := nx fuel i in
      let! (r, i2) := nx fuel i1 in
      match r with
      | (_, Some e) => Done ((zv, Some (eoi_or errArrayRequiresValueOrBracket e)), (true, i2))
      | (tok, None) =>
          match ttyp tok with
          | tCBracket => Done ((zv, Some EOI), (true, i2))
          | _ =>
              let! (r, i3) := pv fuel (un i2 tok) in
              match r with
              | (_, Some e) => Done ((zv, Some e), (true, i3))
              | (value, None) => Done ((value, None), (false, i3))
              end
          end
      end
    else
      let! (r, i1) := nx fuel i in
      match r with
      | (_, Some e) => Done ((zv, Some (eoi_or errArrayRequiresCommaOrBracket e)), (false, i1))
      | (commaBracket, None) =>
          match ttyp commaBracket with
          | tComma =>
              let! (r, i2) := nx fuel i1 in
              match r with
              | (_, Some e) => Done ((zv, Some (eoi_or errArrayRequiresValue e)), (false, i2))
              | (tok, None) =>
                  let! (r, i3) := pv fuel (un i2 tok) in
                  match r with
                  | (_, Some e) => Done ((zv, Some e), (false, i3))
                  | (value, None) => Done ((value, None), (false, i3))
                  end
              end
          | tCBracket => Done ((zv, Some EOI), (false, i1))
          | _ => Done ((zv, Some errArrayRequiresCommaOrBracket), (false, i1))
          end
      end.

  (** encoding/json/parse/parse.go:170-247, parseArray: OfIter over that function. *)
  Definition parse_array (i : I) : impl (bool * I) value := ofIter (true, i).

  (** encoding/json/parse/parse.go:47-53: stream.ReduceToSlice(parseArray(it)).Next() (stream/stream.go:360-395, an OfIter). *)
  Definition collect_array (pv : stepfn I value) : stepfn I (list value) := fun fuel i =>
    let! (r, st) := next (st_to_slice (next (array_gen pv))) fuel (ofIter (false, parse_array i)) in
    Done (r, snd (src (snd (src st)))).

  (** encoding/json/parse/parse.go:36-65, parseValue; the error of the first Next is ignored.  [depth] bounds the recursion. *)
  Fixpoint parse_value (depth : nat) : stepfn I value := fun fuel i =>
    match depth with
    | 0 => OutOfFuel
    | S d =>
        let! (r, i1) := nx fuel i in
        let tok := fst r in
        match ttyp tok with
        | tOBrace => parse_object (parse_value d) fuel (un i1 tok)
        | tOBracket =>
            let! (r, i2) := collect_array (parse_value d) fuel (un i1 tok) in
            match r with
            | (_, Some e) => Done ((zv, Some e), i2)
            | (slc, None) => Done (sliceToValue slc, i2)
            end
        | tString => Done ((stringToValue (tval tok), None), i1)
        | tNumber =>
            match numberToValue (ANumString (tval tok)) with
            | (v, None) => Done ((v, None), i1)
            | (_, Some _) => Panicked (* MustNumberToValue *)
            end
        | tBoolean => Done ((boolToValue (str_eqb (tval tok) text_true), None), i1)
        | tNull => Done ((nullValue, None), i1)
        | _ => Done ((zv, None), i1)
        end
    end.
  Definition parseValue : stepfn I value := fun fuel => parse_value fuel fuel.

  (** encoding/json/parse/parse.go:300-332, Parse, from the token iterator on. *)
  Definition parse_doc : stepfn I value := fun fuel i =>
    let! (r, i1) := nx fuel i in
    match r with
    | (_, Some e) => Done ((zv, Some (eoi_or errEmptyDocument e)), i1)
    | (firstTok, None) =>
        match ttyp firstTok with
        | tOBrace | tOBracket =>
            let! (r, i2) := parseValue fuel (un i1 firstTok) in
            match r with
            | (_, Some e) => Done ((zv, Some e), i2)
            | (doc, None) => Done ((doc, None), i2)
            end
        | _ => Done ((zv, Some errObjectOrArrayRequired), i1)
        end
    end.

  (** The iterator Iterate returns: SetError of an empty one, OfOne, or parseArray. *)
  Inductive doc_iter : Type :=
  | DocErr (e : err) (st : impl (impl unit value) value)
  | DocOne (v : value) (st : impl bool value)
  | DocArr (st : impl (bool * I) value).

  (** encoding/json/parse/parse.go:255-294, Iterate, from the token iterator on. *)
  Definition doc_err (e : err) : doc_iter := DocErr e (ofIter (ofIter tt)).
  Definition iterate : nat -> I -> outcome doc_iter := fun fuel i =>
    let! (r, i1) := nx fuel i in
    match r with
    | (_, Some e) => Done (doc_err (eoi_or errEmptyDocument e))
    | (firstTok, None) =>
        match ttyp firstTok with
        | tOBrace =>
            let! (r, i2) := parse_object (parse_value fuel) fuel (un i1 firstTok) in
            match r with
            | (_, Some e) => Done (doc_err e)
            | (val, None) => Done (DocOne val (ofIter false))
            end
        | tOBracket => Done (DocArr (parse_array (un i1 firstTok)))
        | _ => Done (doc_err errObjectOrArrayRequired)
        end
    end.
  (** Next of that iterator. *)
  Definition doc_next : stepfn doc_iter value := fun fuel it =>
    match it with
    | DocErr e st => let! (r, st') := next (set_error_gen (next novalue_gen) e) fuel st in Done (r, DocErr e st')
    | DocOne v st => let! (r, st') := next (single_gen v) fuel st in Done (r, DocOne v st')
    | DocArr st => let! (r, st') := next (array_gen (parse_value fuel)) fuel st in Done (r, DocArr st')
    end.
End Parse.
Arguments doc_iter : clear implicits.

(** encoding/json/parse/parse.go:300-332, Parse, on an io.Reader; 255-294, Iterate. *)
Definition tokens_of {S} (s : S) : impl (impl (bool * option err * S) Z) token := lexer (ofIter (runes_init s)).
Definition tok_next {S} (rd : reader S) : stepfn (impl (impl (bool * option err * S) Z) token) token :=
  next (lexer_gen (runes_gen rd)).
Definition Parse {S} (rd : reader S) (s : S) (fuel : nat) : outcome (ret value) :=
  let! (r, _) := parse_doc (tok_next rd) unread fuel (tokens_of s) in Done r.
Definition Iterate {S} (rd : reader S) (s : S) (fuel : nat) : outcome (doc_iter (impl (impl (bool * option err * S) Z) token)) :=
  iterate (tok_next rd) unread fuel (tokens_of s).
