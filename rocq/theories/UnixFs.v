(** The calls of package os that code/api.go makes (ReadDir, MkdirAll, Mkdir, RemoveAll, Create), on a Unix file system with
    permissions, as a file system for Code.v.

    The file system is a tree.  The permission bits of a directory are the ones that apply to the process (it owns what it makes);
    a privileged process (root) is not bound by them.  Simplifications: no links, devices, mount points or sticky bits, files can
    always be written, nothing fails for lack of space, no name can be resolved from a current directory that has been removed,
    and no other process is at work. *)
From Coq Require Import ZArith List Bool.
From Verif Require Import Base Code Path PathSpec.
Import ListNotations.
Open Scope Z_scope.

(** A directory has the permissions to read (list), to write (make and remove entries) and to search (reach entries). *)
Inductive node : Type := File | Dir (r w x : bool) (entries : list (list Z * node)).
(** a directory made with permission bits 0: code/api.go:80, 97 and 116 pass fs.ModeDir, which os.Mkdir and os.MkdirAll reduce to
    its nine lowest bits (syscallMode) *)
Definition fresh_dir : node := Dir false false false [].

Definition entry (w : list Z) (es : list (list Z * node)) : option node := option_map snd (find (fun e : list Z * node => path_eqb w (fst e)) es).
Definition set_entry (w : list Z) (n : option node) (es : list (list Z * node)) : list (list Z * node) :=
  match n with Some n => [(w, n)] | None => [] end ++ filter (fun e : list Z * node => negb (path_eqb w (fst e))) es.
(** what is at a place *)
Fixpoint node_at (t : node) (l : place) : option node :=
  match l with
  | [] => Some t
  | w :: l => match node_at t l with Some (Dir _ _ _ es) => entry w es | _ => None end
  end.
(** put something at a place, or remove what is there (not the root) *)
Fixpoint put (t : node) (l : place) (n : option node) : node :=
  match l with
  | [] => match n with Some n => n | None => t end
  | w :: l => match node_at t l with Some (Dir pr pw px es) => put t l (Some (Dir pr pw px (set_entry w n es))) | _ => t end
  end.

(** the parts of a path that are steps *)
Definition steps (p : list Z) : list (list Z) :=
  filter (fun w => if list_eq_dec Z.eq_dec w [] then false else if list_eq_dec Z.eq_dec w dot then false else true) (parts p).
Definition start (cwd : place) (p : list Z) : place := if rooted p then [] else cwd.

Section User.
  (** whether the process is privileged, and its current directory *)
  Variables (root : bool) (cwd : place).

  (** resolving a path name: the place, ENOENT (which os.IsNotExist accepts), or another error (EACCES, ENOTDIR) *)
  Inductive answer := At (l : place) | NotExist | Failed.
  Fixpoint resolve (t : node) (cur : place) (ps : list (list Z)) : answer :=
    match ps with
    | [] => At cur
    | w :: ps =>
        match node_at t cur with
        | Some (Dir _ _ x _) =>
            if root || x then match node_at t (walk cur w) with Some _ => resolve t (walk cur w) ps | None => NotExist end else Failed
        | Some File => Failed
        | None => NotExist
        end
    end.

  (** os.ReadDir *)
  Definition os_read_dir (t : node) (p : list Z) : rd_answer :=
    match resolve t (start cwd p) (steps p) with
    | At l => match node_at t l with
              | Some (Dir r _ _ _) => if root || r then RdOk else RdOther
              | Some File => RdOther
              | None => RdNotExist
              end
    | NotExist => RdNotExist
    | Failed => RdOther
    end.

  (** os.Mkdir with permission bits 0; [rps] are the steps, last one first *)
  Definition make_dir (t : node) (from : place) (rps : list (list Z)) : bool * node :=
    match rps with
    | [] => (false, t)
    | w :: rps =>
        if path_eqb w dotdot then (false, t) else
        match resolve t from (rev rps) with
        | At d =>
            match node_at t d with
            | Some (Dir _ pw px es) =>
                if root || (pw && px) then match entry w es with Some _ => (false, t) | None => (true, put t (w :: d) (Some fresh_dir)) end
                else (false, t)
            | _ => (false, t)
            end
        | _ => (false, t)
        end
    end.
  (** os.Stat: is there a directory, something else, or an error *)
  Definition is_dir (t : node) (from : place) (rps : list (list Z)) : option bool :=
    match resolve t from (rev rps) with
    | At l => match node_at t l with Some (Dir _ _ _ _) => Some true | Some File => Some false | None => None end
    | _ => None
    end.
  (** os.MkdirAll with permission bits 0: nothing to do if there is a directory; otherwise first the parent, then Mkdir *)
  Fixpoint make_dirs (t : node) (from : place) (rps : list (list Z)) : bool * node :=
    match is_dir t from rps with
    | Some b => (b, t)
    | None =>
        match rps with
        | [] => (false, t)
        | _ :: parent =>
            let '(ok, t) := make_dirs t from parent in
            if negb ok then (false, t) else
            let '(ok, t) := make_dir t from rps in
            if ok then (true, t) else (match is_dir t from rps with Some true => true | _ => false end, t)
        end
    end.

  (** os.RemoveAll of an entry (removeAllFrom); [pw] and [px] are the permissions of the directory it is in.  None: it is gone. *)
  Fixpoint remove_tree (pw px : bool) (n : node) : option node :=
    match n with
    | File => if root || (pw && px) then None else Some File
    | Dir r w x es =>
        let es' := if root || (px && r) then
                     (fix go (es : list (list Z * node)) := match es with
                      | [] => []
                      | (nm, e) :: es => match remove_tree w x e with Some e => [(nm, e)] | None => [] end ++ go es
                      end) es
                   else es in
        match es' with
        | [] => if root || (pw && px) then None else Some (Dir r w x [])
        | _ => Some (Dir r w x es')
        end
    end.
  (** the same for a directory that cannot itself be removed *)
  Definition empty_out (n : node) : node :=
    match n with
    | File => File
    | Dir r w x _ => match remove_tree true true n with Some n => n | None => Dir r w x [] end
    end.
  Definition empty_node (n : node) : bool := match n with File => true | Dir _ _ _ es => match es with [] => true | _ => false end end.
  (** os.RemoveAll (removeAll): "." is refused; then Remove is tried, which needs no permission to read the parent; otherwise the
      parent is opened, and removeAllFrom works from there.  ".." and the root cannot be removed, but what is in them is. *)
  Definition remove_dirs (t : node) (rt : bool) (from : place) (rps : list (list Z)) : bool * node :=
    match rps with
    | [] => if rt && match node_at t cwd with Some (Dir r _ _ _) => root || r | _ => false end then (false, empty_out t) else (false, t)
    | w :: rps' =>
        match resolve t from (rev rps') with
        | At d =>
            match node_at t d with
            | Some (Dir pr pw px es) =>
                if negb (root || px) then (false, t) else
                if path_eqb w dotdot then
                  if root || pr then
                    (false, put t (tl d) (option_map empty_out (node_at t (tl d))))
                  else (false, t)
                else
                  match entry w es with
                  | None => (true, t)
                  | Some n =>
                      if empty_node n && (root || pw) then (true, put t (w :: d) None)
                      else if root || pr then
                        let n' := remove_tree pw px n in
                        (match n' with None => true | Some _ => false end, put t (w :: d) n')
                      else (false, t)
                  end
            | Some File => (false, t)
            | None => (true, t)
            end
        | NotExist => (true, t)
        | Failed => (false, t)
        end
    end.

  (** os.Create; the last part of the path must be a name *)
  Definition create_file (t : node) (p : list Z) : bool * node :=
    let w := last (parts p) [] in
    if list_eq_dec Z.eq_dec w [] then (false, t) else
    if list_eq_dec Z.eq_dec w dot then (false, t) else
    if list_eq_dec Z.eq_dec w dotdot then (false, t) else
    match resolve t (start cwd p) (removelast (steps p)) with
    | At d =>
        match node_at t d with
        | Some (Dir _ pw px es) =>
            if negb (root || px) then (false, t) else
            match entry w es with
            | Some File => (true, t)
            | Some (Dir _ _ _ _) => (false, t)
            | None => if root || pw then (true, put t (w :: d) (Some File)) else (false, t)
            end
        | _ => (false, t)
        end
    | _ => (false, t)
    end.

  (** the file system of the process; the paths given to the first four are cleaned ones (code/api.go:73 and 108) *)
  Definition unix : filesys node :=
    {| read_dir := os_read_dir;
       mkdir_all := fun t p => make_dirs t (start cwd p) (rev (steps p));
       mkdir := fun t p => make_dir t (start cwd p) (rev (steps p));
       remove_all := fun t p => remove_dirs t (rooted p) (start cwd p) (rev (steps p));
       create := create_file |}.
End User.

(** ** What there is at a place: nothing, a file, or a directory with its permissions *)
Inductive thing := AFile | ADir (r w x : bool).
Definition thing_at (t : node) (l : place) : option thing :=
  match node_at t l with Some File => Some AFile | Some (Dir r w x _) => Some (ADir r w x) | None => None end.
