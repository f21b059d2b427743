(** Specification vocabulary for C103: what a CSV document is, independently of the reader. *)
From Coq Require Import List ZArith Bool.
From Verif Require Import Base Iter IterSpec SliceMem Csv CsvSpec CsvText.
Import ListNotations.
Open Scope Z_scope.

(** A cell is written plainly, or between quotes with every quote doubled. *)
Inductive cell : Type := Plain (s : bytes) | Quoted (s : bytes).
Definition double_quotes (s : bytes) : bytes := flat_map (fun c => if c =? DQ then [DQ; DQ] else [c]) s.
Definition cell_text (c : cell) : bytes :=
  match c with Plain s => s | Quoted s => DQ :: double_quotes s ++ [DQ] end.
(** CR LF read as LF *)
Fixpoint unix (s : bytes) : bytes :=
  match s with
  | [] => []
  | x :: s' => match s' with y :: _ => if (x =? CR) && (y =? LF) then unix s' else x :: unix s' | [] => [x] end
  end.
(** what a cell means *)
Definition cell_value (c : cell) : bytes := match c with Plain s => s | Quoted s => unix s end.
(** a plain cell holds no comma, no quote and no line feed *)
Definition cell_ok (c : cell) : Prop := match c with Plain s => ~ In COMMA s /\ ~ In DQ s /\ ~ In LF s | Quoted _ => True end.
(** the text of a row: the cells with commas between *)
Fixpoint row_text (r : list cell) : bytes :=
  match r with [] => [] | [c] => cell_text c | c :: r => cell_text c ++ [COMMA] ++ row_text r end.
Definition row_value (r : list cell) : list bytes := map cell_value r.

(** how a line ends: LF or CR LF; at the end of the text also nothing, or a lone CR *)
Inductive line_end : Type := LineFeed | CrLf | Nothing | LoneCr.
Definition end_text (e : line_end) : bytes := match e with LineFeed => [LF] | CrLf => [CR; LF] | Nothing => [] | LoneCr => [CR] end.
Definition inner_end (e : line_end) : Prop := e = LineFeed \/ e = CrLf.
(** the CR of a plain last cell would be taken for a part of the line end *)
Definition end_ok (r : list cell) (e : line_end) : Prop :=
  match e with
  | CrLf | LoneCr => True
  | LineFeed | Nothing => match last r (Quoted []) with Plain s => last s 0 <> CR | Quoted _ => True end
  end.
(** A row has at least one cell, and a line with a single empty plain cell is not a row but an empty line. *)
Definition row_ok (r : list cell) (e : line_end) : Prop := r <> [] /\ r <> [Plain []] /\ Forall cell_ok r /\ end_ok r e.

(** A line of a document is a row or empty. *)
Definition line_item : Type := option (list cell) * line_end.
Definition item_text (i : line_item) : bytes := match fst i with Some r => row_text r | None => [] end ++ end_text (snd i).
Definition item_ok (i : line_item) : Prop := match fst i with Some r => row_ok r (snd i) | None => True end.
Definition lines_text (d : list line_item) : bytes := flat_map item_text d.
Definition lines_rows (d : list line_item) : list (list cell) := flat_map (fun i => match fst i with Some r => [r] | None => [] end) d.

(** complete lines *)
Definition lines_ok (d : list line_item) : Prop := Forall (fun i => item_ok i /\ inner_end (snd i)) d.
(** A document: complete lines, the last line perhaps without its line feed. *)
Definition document (d : list line_item) : Prop :=
  exists d1 d2, d = d1 ++ d2 /\ lines_ok d1 /\ (d2 = [] \/ exists i, d2 = [i] /\ item_ok i).

(** all rows have the same number of cells *)
Definition rectangular {A} (rs : list (list A)) : Prop := forall r r', In r rs -> In r' rs -> length r = length r'.
(** the first cells of a row, each with its comma *)
Definition cells_text (r : list cell) : bytes := flat_map (fun c => cell_text c ++ [COMMA]) r.
(** a table written with every cell between quotes and line feeds at the ends *)
Definition all_quoted (table : list (list bytes)) : list line_item := map (fun r => (Some (map Quoted r), LineFeed)) table.

(** Iterating OfCSV over a source that gives the bytes [txt] and then the error [e0]: the rows [rs], in order, each looked at before the
    next call, and then the error [e] for ever. *)
Definition csv_result (e0 : err) (txt : bytes) (rs : list (list bytes)) (e : err) : Prop :=
  forall m, exists hs it', emits_rows mem_it (next (csv_gen (csv_parse e0))) (ofIter (csv_new false m (0%nat, txt))) hs rs it' /\
    stuck (next (csv_gen (csv_parse e0))) it' e.
