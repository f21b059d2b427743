(** What a path name means: a way through a tree of directories. *)
From Coq Require Import ZArith List Bool.
Import ListNotations.
Open Scope Z_scope.

(** a place in the tree: the names from it up to the root *)
Definition place := list (list Z).
(** the parts of a path between the slashes *)
Fixpoint parts (p : list Z) : list (list Z) :=
  match p with
  | [] => [[]]
  | c :: r => if c =? 47 then [] :: parts r else match parts r with w :: ws => (c :: w) :: ws | [] => [[c]] end
  end.
Definition dot : list Z := [46].
Definition dotdot : list Z := [46; 46].
(** one step from a place: an empty part and a dot stay, two dots go up (the root is above itself), a name goes down *)
Definition walk (from : place) (w : list Z) : place :=
  if list_eq_dec Z.eq_dec w [] then from
  else if list_eq_dec Z.eq_dec w dot then from
  else if list_eq_dec Z.eq_dec w dotdot then tl from
  else w :: from.
Definition rooted (p : list Z) : bool := match p with c :: _ => c =? 47 | [] => false end.
(** where a path leads, from a current directory *)
Definition leads (cwd : place) (p : list Z) : place := fold_left walk (parts p) (if rooted p then [] else cwd).
(** a place at or below another one *)
Definition within (top x : place) : Prop := exists names, x = names ++ top.
(** the parts of a cleaned path: names only, after some double dots if it is relative *)
Definition name (w : list Z) : Prop := w <> [] /\ w <> dot /\ w <> dotdot.
Inductive tidy : list Z -> Prop :=
| tidy_here : tidy dot
| tidy_root : tidy [47]
| tidy_rooted p ns : rooted p = true -> parts p = [] :: ns -> ns <> [] -> Forall name ns -> tidy p
| tidy_relative p k ns : rooted p = false -> parts p = repeat dotdot k ++ ns -> Forall name ns -> tidy p.
