(** Model of package code: code/statements.go (operators, expressions), code/types.go (types, values), code/api.go
    (BaseGenerator).  A pointer to an immutable description is an option (nil is [None]); a union.Maybe is an option. *)
From Coq Require Import ZArith List Bool.
From Verif Require Import Base.
Import ListNotations.
Open Scope Z_scope.
Open Scope go_scope.

(** ** Operators: code/statements.go:13-78; an Operator is any uint *)
Definition Inc := 0. Definition Dec := 1. Definition Neg := 2. Definition BitNot := 3.
Definition afterUnary := 4.
Definition Add := 0 + afterUnary. Definition Sub := 1 + afterUnary. Definition Mul := 2 + afterUnary. Definition Div := 3 + afterUnary.
Definition Concat := 4 + afterUnary. Definition BitAnd := 5 + afterUnary. Definition BitOr := 6 + afterUnary. Definition BitXor := 7 + afterUnary.
Definition BitShiftLeft := 8 + afterUnary. Definition BitShiftRight := 9 + afterUnary. Definition BitShiftRightArithmetic := 10 + afterUnary.
Definition afterBinary := 11 + afterUnary.
Definition Not := 0 + afterBinary. Definition And := 1 + afterBinary. Definition Or := 2 + afterBinary.
Definition Lesser := 3 + afterBinary. Definition LesserEquals := 4 + afterBinary. Definition Equals := 5 + afterBinary.
Definition GreaterEquals := 6 + afterBinary. Definition Greater := 7 + afterBinary. Definition Ternary := 8 + afterBinary.

(** code/statements.go:80-93 *)
Definition is_unary (op : Z) : bool := op <? afterUnary.
Definition is_binary (op : Z) : bool := (afterUnary <=? op) && (op <? afterBinary).
Definition is_boolean (op : Z) : bool := afterBinary <=? op.

(** union.Present, union/union.go:142-147, of a pointer *)
Definition present {V} (v : option V) : outcome (option V) := match v with None => Panicked | Some _ => Done v end.
(** funcs.MustNonNilValue of a pointer *)
Definition must_non_nil_ptr {V} (v : option V) : outcome (option V) := match v with None => Panicked | Some _ => Done v end.
(** indexing a variadic parameter *)
Definition index {V} (l : list V) (i : nat) : outcome V := match nth_error l i with Some v => Done v | None => Panicked end.

(** code/statements.go:95-103 *)
Record expr (V : Type) : Type := Expr { op : Z; val1 : option V; val2 : option V; val3 : option V }.
Arguments Expr {V}. Arguments op {V}. Arguments val1 {V}. Arguments val2 {V}. Arguments val3 {V}.
(** code/statements.go:106-114 *)
Definition of_unary_expr {V} (o : Z) (v : option V) : outcome (expr V) := let! v1 := must_non_nil_ptr v in Done (Expr o v1 None None).
(** code/statements.go:117-127 *)
Definition of_binary_expr {V} (o : Z) (a b : option V) : outcome (expr V) :=
  let! v1 := must_non_nil_ptr a in
  let! v2 := present b in
  Done (Expr o v1 v2 None).
(** code/statements.go:133-158 *)
Definition of_boolean_expr {V} (o : Z) (a : option V) (val23 : list (option V)) : outcome (expr V) :=
  let! (v2, v3) :=
    (if o =? Not then Done (None, None)
     else if o =? Ternary then
       let! x := index val23 0 in let! v2 := present x in
       let! y := index val23 1 in let! v3 := present y in Done (v2, v3)
     else let! x := index val23 0 in let! v2 := present x in Done (v2, None)) in
  let! v1 := must_non_nil_ptr a in
  Done (Expr o v1 v2 v3).

(** ** Types: code/types.go:16-80 *)
Definition Bool := 0. Definition Uint := 1. Definition Uint8 := 2. Definition Uint16 := 3. Definition Uint32 := 4. Definition Uint64 := 5.
Definition Int := 6. Definition Int8 := 7. Definition Int16 := 8. Definition Int32 := 9. Definition Int64 := 10.
Definition Float := 11. Definition Double := 12. Definition String_ := 13. Definition UUID := 14. Definition Date := 15.
Definition DateTimeSecs := 16. Definition DateTimeMillis := 17. Definition DurationDays := 18. Definition DurationSecs := 19.
Definition DurationMillis := 20.
Definition afterScalar := 21.
Definition JSON := 0 + afterScalar. Definition Array := 1 + afterScalar. Definition Enum := 2 + afterScalar. Definition List_ := 3 + afterScalar.
Definition Map_ := 4 + afterScalar. Definition Maybe_ := 5 + afterScalar. Definition Object := 6 + afterScalar. Definition Set_ := 7 + afterScalar.
Definition is_scalar_type (t : Z) : bool := t <? afterScalar.
Definition is_aggregate_type (t : Z) : bool := afterScalar <=? t.

Definition Private := 0. Definition Package := 1. Definition PackageSub := 2. Definition Public := 3.
(** code/types.go:97-107 *)
Inductive typedef : Type := TypeDef (access typ : Z) (bounds : list Z) (name : list Z) (names : list (list Z)) (key value : option typedef).
(** funcs.SliceIndex(access, 0, Private); then code/types.go:106-218, the constructors *)
Definition access_of (access : list Z) : Z := match access with a :: _ => a | [] => Private end.
Definition of_scalar_type (t : Z) (access : list Z) : typedef := TypeDef (access_of access) t [] [] [] None None.
Definition of_json_type (access : list Z) : typedef := TypeDef (access_of access) JSON [] [] [] None None.
Definition of_array_type (e : option typedef) (bounds : list Z) (access : list Z) : outcome typedef :=
  let! v := present e in Done (TypeDef (access_of access) Array bounds [] [] None v).
Definition of_enum_type (name : list Z) (base : option typedef) (constants : list (list Z)) (access : list Z) : outcome typedef :=
  match constants with
  | [] => Panicked
  | _ => let! v := present base in Done (TypeDef (access_of access) Enum [] name constants None v)
  end.
Definition of_list_type (e : option typedef) (access : list Z) : outcome typedef :=
  let! v := present e in Done (TypeDef (access_of access) List_ [] [] [] None v).
Definition of_map_type (k e : option typedef) (access : list Z) : outcome typedef :=
  let! kk := present k in let! v := present e in Done (TypeDef (access_of access) Map_ [] [] [] kk v).
Definition of_maybe_type (e : option typedef) (access : list Z) : outcome typedef :=
  let! v := present e in Done (TypeDef (access_of access) Maybe_ [] [] [] None v).
Definition of_object_type (base : option typedef) (name : list Z) (generics : list (list Z)) (access : list Z) : outcome typedef :=
  let! v := present base in Done (TypeDef (access_of access) Object [] name generics None v).
Definition of_set_type (e : option typedef) (access : list Z) : outcome typedef :=
  let! v := present e in Done (TypeDef (access_of access) Set_ [] [] [] None v).

(** code/types.go:220-236: ValKind, Val *)
Definition LitVal := 0. Definition VarVal := 1. Definition VarConst := 2.
Record val : Type := Val { val_access : option Z; val_kind : Z; val_typ : option typedef; val_value : list Z }.
(** code/types.go:239-248, OfLitVal *)
Definition of_lit_val (t : option typedef) (v : list Z) : outcome val := let! t := must_non_nil_ptr t in Done (Val None LitVal t v).
(** code/types.go:251-263, OfVarVal; union.First of the optional arguments *)
Definition of_var_val (konst : bool) (t : option typedef) (v : list Z) (access : list Z) : outcome val :=
  let! t := must_non_nil_ptr t in Done (Val (hd_error access) (if konst then VarConst else VarVal) t v).

(** ** BaseGenerator: code/api.go *)
(** The calls of package os it makes, on an arbitrary file system.  ReadDir answers success, "does not exist" or another error. *)
Definition path := list Z.
Inductive rd_answer := RdOk | RdNotExist | RdOther.
Record filesys (F : Type) : Type := FileSys {
  read_dir : F -> path -> rd_answer;
  mkdir_all : F -> path -> bool * F;   (* true: no error *)
  mkdir : F -> path -> bool * F;
  remove_all : F -> path -> bool * F;
  create : F -> path -> bool * F
}.
Arguments FileSys {F}. Arguments read_dir {F}. Arguments mkdir_all {F}. Arguments mkdir {F}. Arguments remove_all {F}. Arguments create {F}.

(** code/api.go:49-60.  [dirs] is a map, [None] is the nil map; [srcs] is the set of pairs of dir and name for which Map2Test answers
    true; [current_src] is the path of the file the current writer writes to. *)
Record generator : Type := Generator {
  base_path : option path; dirs : option (list path); current_dir : path; srcs : list (path * path); current_src : option path
}.
(** new(BaseGenerator) *)
Definition new_generator : generator := Generator None None [] [] None.
Definition path_eqb (a b : path) : bool := if list_eq_dec Z.eq_dec a b then true else false.
Definition slash : Z := 47.

Section Gen.
  Context {F : Type} (fs : filesys F).
  (** path.Clean *)
  Variable clean : path -> path.
  (** a method returns normally (true) or panics (false), and leaves a generator and a file system either way *)
  Definition result : Type := (bool * (generator * F))%type.

  (** code/api.go:63-65, GetBasePath *)
  Definition get_base_path (g : generator) : outcome path := match base_path g with Some p => Done p | None => Panicked end.

  (** code/api.go:68-103, SetBasePath; the error of SetOrError is dropped *)
  Definition set_base_path (g : generator) (f : F) (bp : path) : result :=
    let g := match base_path g with
             | Some _ => g
             | None => Generator (Some bp) (dirs g) (current_dir g) (srcs g) (current_src g)
             end in
    let cleanPath := clean bp in
    match read_dir fs f cleanPath with
    | RdNotExist => let '(ok, f) := mkdir_all fs f cleanPath in (ok, (g, f))
    | RdOther => (false, (g, f))
    | RdOk =>
        let '(ok, f) := remove_all fs f cleanPath in
        if negb ok then (false, (g, f)) else
        let '(ok, f) := mkdir fs f cleanPath in (ok, (g, f))
    end.

  (** code/api.go:106-122, Dir; writing to a nil map panics *)
  Definition dir (g : generator) (f : F) (name : path) : result :=
    match base_path g with
    | None => (false, (g, f))
    | Some b =>
        let dirPath := clean (b ++ slash :: name) in
        if match dirs g with Some d => existsb (path_eqb dirPath) d | None => false end then (false, (g, f)) else
        let '(ok, f) := mkdir_all fs f dirPath in
        if negb ok then (false, (g, f)) else
        match dirs g with
        | None => (false, (g, f))
        | Some d => (true, (Generator (base_path g) (Some (dirPath :: d)) (current_dir g) (srcs g) (current_src g), f))
        end
    end.

  (** code/api.go:125-141, Src *)
  Definition src (g : generator) (f : F) (name : path) : result :=
    if existsb (fun x => path_eqb (fst x) (current_dir g) && path_eqb (snd x) name) (srcs g) then (false, (g, f)) else
    let p := current_dir g ++ slash :: name in
    let '(ok, f) := create fs f p in
    if negb ok then (false, (g, f)) else
    (true, (Generator (base_path g) (dirs g) (current_dir g) ((current_dir g, name) :: srcs g) (Some p), f)).

  (** A history of calls; a panic is recovered by the caller and the next call is made. *)
  Inductive call := CallBase (bp : path) | CallDir (name : path) | CallSrc (name : path).
  Definition do_call (c : call) (w : generator * F) : result :=
    match c with
    | CallBase bp => set_base_path (fst w) (snd w) bp
    | CallDir n => dir (fst w) (snd w) n
    | CallSrc n => src (fst w) (snd w) n
    end.
  Fixpoint do_calls (cs : list call) (w : generator * F) : list bool * (generator * F) :=
    match cs with
    | [] => ([], w)
    | c :: cs' => let '(ok, w1) := do_call c w in let '(oks, w2) := do_calls cs' w1 in (ok :: oks, w2)
    end.
End Gen.
