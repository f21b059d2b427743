(** Model of reflect/reflect.go:141-154, FieldsByName, and 331-337, GetFieldByName, with reflect.Type.FieldByName and FieldByNameFunc of the
    Go standard library (reflect/type.go), which GetFieldByName calls.
    A field of a struct is its name, whether it is embedded, and its type; of the types only what matters here is kept: a struct type by
    its number, a pointer, anything else.  The struct types are a table from numbers to fields.  Fields are referred to by their index. *)
From Coq Require Import ZArith List Bool.
From Verif Require Import Base Rest.
Import ListNotations.
Open Scope nat_scope.

Inductive ty : Type := TStruct (id : nat) | TPtr (t : ty) | TElse (id : nat).
Record field : Type := Field { fname : str; fembedded : bool; ftype : ty }.

Section Types.
  Variable types : list (list field).
  (** typ.NumField(), typ.Field(i) of a struct type *)
  Definition fields (id : nat) : list field := nth id types [].

  (** reflect/reflect.go:141-154, FieldsByName: [None] is the nil map.  The fields are assigned in order, a later one of the same
      name replaces an earlier one. *)
  Fixpoint put (m : list (str * field)) (k : str) (f : field) : list (str * field) :=
    match m with
    | [] => [(k, f)]
    | (k', f') :: m => if str_eqb k' k then (k', f) :: m else (k', f') :: put m k f
    end.
  Definition fields_by_name (t : ty) : option (list (str * field)) :=
    match t with
    | TStruct id =>
        match fields id with
        | [] => None
        | fs => Some (fold_left (fun m f => put m (fname f) f) fs [])
        end
    | _ => None
    end.
  Definition map_get (m : option (list (str * field))) (k : str) : option field :=
    match m with
    | None => None
    | Some m => match find (fun e => str_eqb (fst e) k) m with Some (_, f) => Some f | None => None end
    end.

  (** reflect/type.go, FieldByNameFunc: for an embedded field of type T or a pointer to T, T, if it is a struct *)
  Definition embedded_struct (f : field) : option nat :=
    if fembedded f then
      match (match ftype f with TPtr t => t | t => t end) with TStruct id => Some id | _ => None end
    else None.
  Notation scan := (nat * list nat)%type.   (* a struct type, and the indexes that lead to it *)
  (** nextCount and count: how often a type is reached at a level, 1 or 2 (more than once) *)
  Definition count_of (c : list (nat * nat)) (t : nat) : nat := match find (fun e => fst e =? t) c with Some (_, n) => n | None => 0 end.
  Definition set_count (c : list (nat * nat)) (t n : nat) : list (nat * nat) := (t, n) :: c.

  (** the fields of one struct: the result so far, the next level and its counts; [None] when the name annihilates itself *)
  Definition found : Type := option (list nat * field).
  Fixpoint scan_fields (name : str) (multiple : bool) (index : list nat) (i : nat) (fs : list field) (st : found * list scan * list (nat * nat))
    : option (found * list scan * list (nat * nat)) :=
    match fs with
    | [] => Some st
    | f :: fs =>
        let '(ok, next, nextCount) := st in
        if str_eqb (fname f) name then
          if multiple || (match ok with Some _ => true | None => false end) then None
          else scan_fields name multiple index (S i) fs (Some (index ++ [i], f), next, nextCount)
        else
          match ok, embedded_struct f with
          | Some _, _ | _, None => scan_fields name multiple index (S i) fs st
          | None, Some styp =>
              if 0 <? count_of nextCount styp then scan_fields name multiple index (S i) fs (ok, next, set_count nextCount styp 2)
              else scan_fields name multiple index (S i) fs (ok, next ++ [(styp, index ++ [i])], set_count nextCount styp (if multiple then 2 else 1))
          end
    end.
  (** the structs of one level *)
  Fixpoint scan_level (name : str) (count : list (nat * nat)) (current : list scan) (visited : list nat) (st : found * list scan * list (nat * nat))
    : option (list nat * (found * list scan * list (nat * nat))) :=
    match current with
    | [] => Some (visited, st)
    | (t, index) :: current =>
        if existsb (Nat.eqb t) visited then scan_level name count current visited st
        else match scan_fields name (1 <? count_of count t) index 0 (fields t) st with
             | None => None
             | Some st => scan_level name count current (t :: visited) st
             end
    end.
  (** the levels; each but the last visits a new struct type, so [fuel], one more than their number, is enough *)
  Fixpoint scan_levels (fuel : nat) (name : str) (count : list (nat * nat)) (next : list scan) (visited : list nat) : found :=
    match fuel with
    | O => None
    | S fuel =>
        match next with
        | [] => None
        | _ =>
            match scan_level name count next visited (None, [], []) with
            | None => None
            | Some (visited, (Some r, _, _)) => Some r
            | Some (visited, (None, next, nextCount)) => scan_levels fuel name nextCount next visited
            end
        end
    end.
  Definition field_by_name_func (t : nat) (name : str) : found := scan_levels (S (S (length types))) name [] [(t, [])] [].

  (** reflect/type.go, structType.FieldByName *)
  Fixpoint first_named (name : str) (i : nat) (fs : list field) : found :=
    match fs with
    | [] => None
    | f :: fs => if str_eqb (fname f) name then Some ([i], f) else first_named name (S i) fs
    end.
  Definition field_by_name (t : nat) (name : str) : found :=
    match name with
    | [] => None
    | _ =>
        match first_named name 0 (fields t) with
        | Some r => Some r
        | None => if existsb fembedded (fields t) then field_by_name_func t name else None
        end
    end.
  (** reflect/reflect.go:331-337, GetFieldByName: the indexes that lead to the field, and the field.  FieldByName panics on a type that is
      not a struct. *)
  Definition get_field_by_name (t : ty) (name : str) : outcome (list nat * field) :=
    match t with
    | TStruct id => match field_by_name id name with Some r => Done r | None => Panicked end
    | _ => Panicked
    end.
End Types.
