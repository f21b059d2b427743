(** Model: the state of the caller's io.Reader after Parse and Iterate. *)
From Verif Require Import Base Iter IterGen Readers ReaderSpec Union Rest Writer Json JsonLex JsonParse JsonWrite.
Open Scope go_scope.

(** the io.Reader under the tokens of a text *)
Definition reader_of {S} (i : impl (impl (bool * option err * S) Z) token) : S := snd (src (src i)).
(** encoding/json/parse/parse.go:300-332, Parse; the second component is the reader as Parse leaves it *)
Definition ParseFrom {S} (rd : reader S) (s : S) (fuel : nat) : outcome (ret value * S) :=
  let! (r, i) := parse_doc (tok_next rd) unread fuel (tokens_of s) in Done (r, reader_of i).
(** Parse called [n] times on the same reader *)
Fixpoint ParseMany {S} (rd : reader S) (n : nat) (s : S) (fuel : nat) : outcome (list (ret value) * S) :=
  match n with
  | 0%nat => Done ([], s)
  | Datatypes.S n' =>
      let! (r, s1) := ParseFrom rd s fuel in
      let! (rs, s2) := ParseMany rd n' s1 fuel in
      Done (r :: rs, s2)
  end.
(** the reader under the iterator of an array that Iterate returned *)
Definition iter_reader {S} (it : doc_iter (impl (impl (bool * option err * S) Z) token)) : option S :=
  match it with DocArr st => Some (reader_of (snd (src st))) | _ => None end.

(** encoding/json/write/write.go:12-28, Write, called for one document after the other until it returns an error: how many calls
    returned nil, the error, and the destination *)
Fixpoint WriteMany {S} (dst : iowriter S) (vs : list value) (s : S) : outcome (nat * option err * S) :=
  match vs with
  | [] => Done (0%nat, None, s)
  | v :: vs' =>
      let! (oe, s1) := write_json (write (rune_writer dst)) v s in
      match oe with
      | Some e => Done (0%nat, Some e, s1)
      | None => let! (n, oe2, s2) := WriteMany dst vs' s1 in Done (Datatypes.S n, oe2, s2)
      end
  end.
