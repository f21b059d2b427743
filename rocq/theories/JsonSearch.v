(** Model of encoding/json/search.go.  A Go string is its list of bytes; error texts and the paths kept for them are not
    modelled. *)
From Verif Require Import Base GoMap Union Rest Decimal Json.
Open Scope go_scope.
Open Scope Z_scope.

(** encoding/json/search.go:18-19, the errors, told apart by number. *)
Definition errIllegalPath := UserErr 350.
Definition errNoSuchPath := UserErr 351.

(** encoding/json/search.go:15-16, regexPathParts: a match at the start of [s] is a dot and the longest non-empty run of
    bytes other than dot and brackets, or a non-empty run of digits in brackets.  The submatches are [key] or [index]. *)
Definition key_char (c : Z) : bool := negb ((c =? 46) || (c =? 91) || (c =? 93)).
Fixpoint span_key (s : str) : str * str :=
  match s with
  | [] => ([], [])
  | c :: r => if key_char c then let '(a, b) := span_key r in (c :: a, b) else ([], s)
  end.
Inductive part := PKey (key : str) | PIndex (index : str).
Definition match_part (s : str) : option (part * str) :=
  match s with
  | [] => None
  | c :: r =>
      if c =? 46 then
        match span_key r with
        | ([], _) => None
        | (key, rest) => Some (PKey key, rest)
        end
      else if c =? 91 then
        match span_digits r with
        | ([], _) => None
        | (index, c2 :: rest) => if c2 =? 93 then Some (PIndex index, rest) else None
        | (_, []) => None
        end
      else None
  end.
(** All matches from remains to right (FindAllStringSubmatch), and what is remains when they are removed
    (ReplaceAllLiteralString with the empty string). [n] bounds the length of [s]. *)
Fixpoint find_parts (n : nat) (s : str) : list part * str :=
  match n, s with
  | S n', c :: r =>
      match match_part s with
      | Some (p, rest) => let '(ps, remains) := find_parts n' rest in (p :: ps, remains)
      | None => let '(ps, remains) := find_parts n' r in (ps, c :: remains)
      end
  | _, _ => ([], [])
  end.

(** conv.To(string, *int): strconv.ParseInt in base 10 with 64 bits (Go standard library, trusted), on digits. *)
Fixpoint digits_val (s : str) (acc : Z) : Z := match s with [] => acc | c :: r => digits_val r (acc * 10 + (c - 48)) end.
Definition string_to_int (s : str) : option Z := if digits_val s 0 <=? 9223372036854775807 then Some (digits_val s 0) else None.

(** encoding/json/search.go:59-75, the loop of parsePath; a lookup is the union of a key and an index. *)
Fixpoint to_lookups (parts : list part) : option (list (two str Z)) :=
  match parts with
  | [] => Some []
  | PKey key :: ps => option_map (cons (of2t key)) (to_lookups ps)
  | PIndex d :: ps =>
      match string_to_int d with
      | None => None
      | Some index => option_map (cons (of2u index)) (to_lookups ps)
      end
  end.
(** encoding/json/search.go:31-78, parsePath. *)
Definition parsePath (p : str) : list (two str Z) * option err :=
  let '(parts, remains) := find_parts (length p) p in
  match remains with
  | _ :: _ => ([], Some errIllegalPath)
  | [] =>
      match parts with
      | [] => ([], Some errIllegalPath)
      | _ =>
          match to_lookups parts with
          | None => ([], Some errIllegalPath)
          | Some lookups => (lookups, None)
          end
      end
  end.

(** encoding/json/search.go:86-146, the function lookupsToFunc returns. *)
Fixpoint run_lookups (lookups : list (two str Z)) (curValue : value) : outcome (ret value) :=
  match lookups with
  | [] => Done (curValue, None)
  | keyIndex :: rest =>
      if which_eqb (which2 keyIndex) WT then
        let! key := get2t keyIndex in
        if negb (jtype_eqb (typ_of curValue) TObject) then Done (zv, Some errNoSuchPath) else
        let! m := asMap curValue in
        match mget str_eqb m key with
        | Some v => run_lookups rest v
        | None => Done (zv, Some errNoSuchPath)
        end
      else
        let! index := get2u keyIndex in
        if negb (jtype_eqb (typ_of curValue) TArray) then Done (zv, Some errNoSuchPath) else
        let! slc := asSlice curValue in
        if Z.of_nat (length slc) >? index then
          (* slc[index] *)
          if index <? 0 then Panicked else
          match nth_error slc (Z.to_nat index) with Some v => run_lookups rest v | None => Panicked end
        else Done (zv, Some errNoSuchPath)
  end.

(** encoding/json/search.go:152-162, ParsePath, and the call of the function it returns; [None] when there is none. *)
Definition ParsePath (p : str) : option (value -> outcome (ret value)) * option err :=
  match parsePath p with
  | (_, Some e) => (None, Some e)
  | (lookups, None) => (Some (run_lookups lookups), None)
  end.
