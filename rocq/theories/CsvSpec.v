(** Specification vocabulary for C88. *)
From Coq Require Import List.
From Verif Require Import Base Iter IterSpec SliceMem Csv.
Import ListNotations.

(** The parser delivers these records, without errors, and is then in state [s']. *)
Inductive delivers {S T} (parser : S -> (option (list T) * option err) * S) : S -> list (list T) -> S -> Prop :=
| del_nil s : delivers parser s [] s
| del_cons s r s1 rs s2 : parser s = ((Some r, None), s1) -> delivers parser s1 rs s2 -> delivers parser s (r :: rs) s2.

(** The next calls of [f] return slices without errors; each slice, looked at before the following call, holds its row. *)
Inductive emits_rows {St T} (mem_of : St -> mem T) (f : stepfn St slice) : St -> list slice -> list (list T) -> St -> Prop :=
| er_nil s : emits_rows mem_of f s [] [] s
| er_cons s h r s1 hs rs s2 : returns f s (h, None) s1 -> contents (mem_of s1) h = r -> emits_rows mem_of f s1 hs rs s2 ->
    emits_rows mem_of f s (h :: hs) (r :: rs) s2.

(** the memory as seen through an iterator made by OfIter *)
Definition mem_it {S T} (it : impl (csv_state S T) slice) : mem T := c_mem (src it).
