(** Specification vocabulary: what the line reader makes of any text. *)
From Verif Require Import Base Readers ReaderSpec JsonSpec.
Open Scope Z_scope.

(** The characters the reader keeps: after a CR, the first LF is left out, wherever it stands.  The flag: a CR has been seen and
    no LF since. *)
Fixpoint kept (cr : bool) (text : list Z) : list Z :=
  match text with
  | [] => []
  | c :: text =>
    if c =? 13 then c :: kept true text
    else if c =? 10 then (if cr then kept false text else c :: kept false text)
    else c :: kept cr text
  end.

(** A text cut at every CR and every LF: the pieces before each of them, and what is left after the last one. *)
Fixpoint cuts (text : list Z) : list (list Z) * list Z :=
  match text with
  | [] => ([], [])
  | c :: text =>
    let '(ls, rest) := cuts text in
    if (c =? 13) || (c =? 10) then ([] :: ls, rest)
    else match ls with [] => ([], c :: rest) | l :: ls => ((c :: l) :: ls, rest) end
  end.

(** the complete lines of a text, and the incomplete one at its end *)
Definition complete_lines (text : list Z) : list (list Z) := fst (cuts (kept false text)).
Definition incomplete_line (text : list Z) : list Z := snd (cuts (kept false text)).

Definition starts {A} (p l : list A) : Prop := exists q, l = p ++ q.

(** lines, each with its end *)
Definition ended (eol : list Z) (ls : list (list Z)) : list Z := flat_map (fun l => l ++ eol) ls.

(** the ends of line IOWriterAsLines writes: LF, or CR LF on Windows *)
Definition os_eol (eol : list Z) : Prop := eol = [10] \/ eol = [13; 10].

(** a line that can be written and read back: Unicode text without CR and LF *)
Definition line (l : list Z) : Prop := plain l /\ Forall scalar l.
