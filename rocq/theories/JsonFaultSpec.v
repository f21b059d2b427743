(** Specification vocabulary: complete documents, and documents cut short. *)
From Verif Require Import Base Readers ReaderSpec Writer Union Rest Json JsonLex JsonSpec.
Open Scope Z_scope.

(** A text that is one document and nothing more, in the language the parser is found to accept (which contains RFC 8259): white
    space may come before it, not after it. *)
Definition document (text : list Z) (t : tree) : Prop :=
  exists toks, tokenized EOI text toks [] /\ gval false toks t /\ container t /\ ~ wsc (last text 0).

(** [p] is the beginning of [text], and at least one character is missing. *)
Definition cut_short {A} (p text : list A) : Prop := exists q, q <> [] /\ text = p ++ q.

(** the elements Iterate goes through *)
Definition elements (t : tree) : list value := match t with JArr l => map value_of l | _ => [] end.
Definition first_elements (vs : list value) (t : tree) : Prop := exists n, vs = firstn n (elements t).
(** the first elements, and after them an element that is a number, of which only the first characters are left *)
Definition cut_number (vs : list value) (t : tree) : Prop :=
  exists n s s', nth_error (elements t) n = Some (value_of (JNum s')) /\ cut_short s s' /\ vs = firstn n (elements t) ++ [value_of (JNum s)].

(** A destination that keeps what it is given, though not always all of it: Write(p) appends the first [n] bytes of [p] to the
    contents and returns [n], with or without an error.  [ok] holds of its states. *)
Definition keeps {S} (dst : iowriter S) (contents : S -> list Z) (ok : S -> Prop) : Prop :=
  forall s p n oe s', ok s -> dst s p = ((n, oe), s') -> ok s' /\ 0 <= n <= Z.of_nat (length p) /\ contents s' = contents s ++ firstn (Z.to_nat n) p.
