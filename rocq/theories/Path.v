(** path.Clean of the Go standard library, which code/api.go:73 (SetBasePath) and 108 (Dir) call.  Paths are lists of bytes.
    Simplification: the output is a buffer of its own; lazybuf of path/path.go shares it with the input while the two agree. *)
From Coq Require Import ZArith List Bool.
From Verif Require Import Base.
Import ListNotations.
Open Scope Z_scope.

(** path/path.go, Clean: the inner loops.  The buffer is held latest byte first, so its length is out.w *)
(** out.w--, and again while out.w > dotdot and the byte taken off is not a slash *)
Fixpoint backtrack (dotdot : nat) (out : list Z) : list Z :=
  match out with
  | [] => []
  | c :: r => if (dotdot <? length r)%nat && negb (c =? 47) then backtrack dotdot r else r
  end.
(** the bytes up to the next slash *)
Fixpoint copy_name (out rest : list Z) : list Z * list Z :=
  match rest with
  | c :: r => if c =? 47 then (out, rest) else copy_name (c :: out) r
  | [] => (out, rest)
  end.
(** r+1 == n || path[r+1] == '/', and the like *)
Definition ends (rest : list Z) : bool := match rest with [] => true | c :: _ => c =? 47 end.

(** the loop over the path; every round takes at least one byte, so [fuel], the length of the path, is enough *)
Fixpoint clean_loop (fuel : nat) (rooted : bool) (rest out : list Z) (dotdot : nat) : list Z :=
  match fuel with
  | O => out
  | S fuel =>
      match rest with
      | [] => out
      | c :: r1 =>
          if c =? 47 then clean_loop fuel rooted r1 out dotdot
          else if (c =? 46) && ends r1 then clean_loop fuel rooted r1 out dotdot
          else if (c =? 46) && match r1 with d :: r2 => (d =? 46) && ends r2 | [] => false end then
            let r2 := tl r1 in
            if (dotdot <? length out)%nat then clean_loop fuel rooted r2 (backtrack dotdot out) dotdot
            else if negb rooted then
              let out := 46 :: 46 :: (if (0 <? length out)%nat then 47 :: out else out) in
              clean_loop fuel rooted r2 out (length out)
            else clean_loop fuel rooted r2 out dotdot
          else
            let out := if (rooted && negb (length out =? 1)%nat) || (negb rooted && negb (length out =? 0)%nat) then 47 :: out else out in
            let '(out, r2) := copy_name out rest in
            clean_loop fuel rooted r2 out dotdot
      end
  end.
Definition clean (p : list Z) : list Z :=
  match p with
  | [] => [46]
  | c :: r =>
      let out := if c =? 47 then clean_loop (length p) true r [47] 1 else clean_loop (length p) false p [] 0 in
      match out with [] => [46] | _ => rev out end
  end.
