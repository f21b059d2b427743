(** Specification vocabulary for package code (C86, C87). *)
From Coq Require Import ZArith List Bool.
From Verif Require Import Base Code.
Import ListNotations.
Open Scope Z_scope.

(** The operators by name, in their three classes. *)
Definition unary_operators := [Inc; Dec; Neg; BitNot].
Definition binary_operators := [Add; Sub; Mul; Div; Concat; BitAnd; BitOr; BitXor; BitShiftLeft; BitShiftRight; BitShiftRightArithmetic].
Definition boolean_operators := [Not; And; Or; Lesser; LesserEquals; Equals; GreaterEquals; Greater; Ternary].
(** [n] operands, given from the first *)
Definition has_operands {V} (n : nat) (e : expr V) (vs : list V) : Prop :=
  match n, vs with
  | 1%nat, [a] => val1 e = Some a /\ val2 e = None /\ val3 e = None
  | 2%nat, [a; b] => val1 e = Some a /\ val2 e = Some b /\ val3 e = None
  | 3%nat, [a; b; c] => val1 e = Some a /\ val2 e = Some b /\ val3 e = Some c
  | _, _ => False
  end.

(** The types by name, in their two classes. *)
Definition scalar_types := [Bool; Uint; Uint8; Uint16; Uint32; Uint64; Int; Int8; Int16; Int32; Int64; Float; Double; String_; UUID; Date;
  DateTimeSecs; DateTimeMillis; DurationDays; DurationSecs; DurationMillis].
Definition aggregate_types := [JSON; Array; Enum; List_; Map_; Maybe_; Object; Set_].
(** [x] is the access level that the optional argument [access] asks for: private by default. *)
Definition asked_access (access : list Z) (x : Z) : Prop := (access = [] -> x = Private) /\ forall y r, access = y :: r -> x = y.
(** A type definition is complete: it has the parts its kind needs, no others, and they are complete. *)
Inductive complete : typedef -> Prop :=
| com_scalar a t : In t scalar_types -> complete (TypeDef a t [] [] [] None None)
| com_json a : complete (TypeDef a JSON [] [] [] None None)
| com_array a b v : complete v -> complete (TypeDef a Array b [] [] None (Some v))
| com_enum a n ns v : ns <> [] -> complete v -> complete (TypeDef a Enum [] n ns None (Some v))
| com_list a v : complete v -> complete (TypeDef a List_ [] [] [] None (Some v))
| com_map a k v : complete k -> complete v -> complete (TypeDef a Map_ [] [] [] (Some k) (Some v))
| com_maybe a v : complete v -> complete (TypeDef a Maybe_ [] [] [] None (Some v))
| com_object a n ns v : complete v -> complete (TypeDef a Object [] n ns None (Some v))
| com_set a v : complete v -> complete (TypeDef a Set_ [] [] [] None (Some v)).

(** ** File systems *)
(** [q] lies below [p] *)
Definition below (p q : path) : Prop := exists r, q = p ++ slash :: r.
(** What is used of the file system: [has f p] says that there is something at [p]. *)
Record fs_laws {F} (fs : filesys F) (has : F -> path -> Prop) : Prop := {
  law_read : forall f p, read_dir fs f p = RdNotExist -> ~ has f p /\ forall q, below p q -> ~ has f q;
  law_mkdir_all : forall f p f', mkdir_all fs f p = (true, f') -> has f' p /\ (forall q, has f q -> has f' q) /\ (forall q, below p q -> has f' q -> has f q);
  law_mkdir : forall f p f', mkdir fs f p = (true, f') -> forall q, has f' q <-> has f q \/ q = p;
  law_remove : forall f p f', remove_all fs f p = (true, f') -> forall q, has f' q <-> has f q /\ q <> p /\ ~ below p q
}.
(** A file system that satisfies them: the list of the paths that exist. *)
Definition list_fs : filesys (list path) :=
  {| read_dir := fun f p => if existsb (path_eqb p) f then RdOk
                            else if existsb (fun q => path_eqb (firstn (S (length p)) q) (p ++ [slash])) f then RdOther else RdNotExist;
     mkdir_all := fun f p => (true, p :: f);
     mkdir := fun f p => (true, p :: f);
     remove_all := fun f p => (true, filter (fun q => negb (path_eqb q p || path_eqb (firstn (S (length p)) q) (p ++ [slash]))) f);
     create := fun f p => (true, p :: f) |}.

(** the paths given to SetBasePath in a history, in order *)
Definition base_calls (cs : list call) : list path := flat_map (fun c => match c with CallBase p => [p] | _ => [] end) cs.
