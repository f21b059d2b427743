(** Go's type system and reflection, as far as funcs, reflect and union use it.  Nothing here models code of /repo: it is
    the part of the Go runtime (package reflect) that reflect/reflect.go, union/reflect/reflect.go and
    funcs/funcs.go:1002-1071 call. *)
From Verif Require Import Base.
Open Scope nat_scope.

(** reflect.Kind, in the numeric order of package reflect *)
Inductive kind : Set :=
| Invalid | Bool | Int | Int8 | Int16 | Int32 | Int64 | Uint | Uint8 | Uint16 | Uint32 | Uint64 | Uintptr
| Float32 | Float64 | Complex64 | Complex128 | Array | Chan | Func | Interface | Map | Pointer | Slice | String
| Struct | UnsafePointer.
Definition kind_num (k : kind) : nat :=
  match k with
  | Invalid => 0 | Bool => 1 | Int => 2 | Int8 => 3 | Int16 => 4 | Int32 => 5 | Int64 => 6 | Uint => 7 | Uint8 => 8
  | Uint16 => 9 | Uint32 => 10 | Uint64 => 11 | Uintptr => 12 | Float32 => 13 | Float64 => 14 | Complex64 => 15
  | Complex128 => 16 | Array => 17 | Chan => 18 | Func => 19 | Interface => 20 | Map => 21 | Pointer => 22
  | Slice => 23 | String => 24 | Struct => 25 | UnsafePointer => 26
  end.
Definition kind_eqb (a b : kind) : bool := Nat.eqb (kind_num a) (kind_num b).

Inductive bigk : Set := BigInt | BigFloat | BigRat.
Definition bigk_eqb (a b : bigk) : bool :=
  match a, b with BigInt, BigInt | BigFloat, BigFloat | BigRat, BigRat => true | _, _ => false end.

(** Types.  [TNamed n] is the n-th defined type of the program, whose underlying type the environment gives; so types
    may be recursive, as in [type P *P].  [TBasic k] is the predeclared type of that kind; [TOther k n] is the n-th
    unnamed type of a composite kind other than pointer. *)
Inductive ty : Set :=
| TBasic (k : kind)
| TPtr (t : ty)
| TOther (k : kind) (n : nat)
| TBig (b : bigk)          (* big.Int, big.Float, big.Rat: structs *)
| TMaybe (t : ty)          (* union.Maybe[t]: a struct *)
| TNamed (n : nat).
Fixpoint ty_eqb (a b : ty) : bool :=
  match a, b with
  | TBasic k, TBasic k' => kind_eqb k k'
  | TPtr t, TPtr t' | TMaybe t, TMaybe t' => ty_eqb t t'
  | TOther k n, TOther k' n' => kind_eqb k k' && Nat.eqb n n'
  | TBig x, TBig y => bigk_eqb x y
  | TNamed n, TNamed n' => Nat.eqb n n'
  | _, _ => false
  end.
(** Underlying types of defined types *)
Inductive uty : Set :=
| UBasic (k : kind)
| UPtr (t : ty)
| UOther (k : kind) (n : nat).
Definition tyenv := nat -> uty.

Section Env.
  Variable env : tyenv.
  Definition kind_of (t : ty) : kind :=
    match t with
    | TBasic k | TOther k _ => k
    | TPtr _ => Pointer
    | TBig _ | TMaybe _ => Struct
    | TNamed n => match env n with UBasic k | UOther k _ => k | UPtr _ => Pointer end
    end.
  (** Type.Elem() of a pointer type *)
  Definition elem (t : ty) : option ty :=
    match t with
    | TPtr u => Some u
    | TNamed n => match env n with UPtr u => Some u | _ => None end
    | _ => None
    end.
  (** Type.Name() is not empty *)
  Definition has_name (t : ty) : bool :=
    match t with TPtr _ | TOther _ _ => false | _ => true end.
End Env.

(** Run time values.  Addresses are numbers; what a pointer, or a value reflect calls addressable, refers to is in the
    heap.  [PNilable None] is a nil chan, func, map, slice or unsafe pointer.  Scalars and strings are numbered, 0 being
    the zero value. *)
Inductive payload : Set :=
| PScalar (z : Z)
| PPtr (a : option nat)
| PNilable (x : option Z)
| PIface (d : option (ty * payload))
| PStruct (fields : list payload).
Definition heap := nat -> payload.
Definition hset (h : heap) (a : nat) (p : payload) : heap := fun b => if Nat.eqb b a then p else h b.

(** reflect.Value: the invalid (zero) Value, or a typed value that is a temporary or lives at an address *)
Inductive loc : Set := Temp (p : payload) | At (a : nat).
Inductive rvalue : Set := RInvalid | RVal (t : ty) (l : loc).
Definition load (h : heap) (l : loc) : payload := match l with Temp p => p | At a => h a end.

(** reflect.ValueOf of an interface value: nil, or a dynamic type and value *)
Definition value_of (d : option (ty * payload)) : rvalue :=
  match d with None => RInvalid | Some (t, p) => RVal t (Temp p) end.

Section Values.
  Variable env : tyenv.
  Definition is_valid (v : rvalue) : bool := match v with RInvalid => false | RVal _ _ => true end.
  Definition kind_rv (v : rvalue) : kind := match v with RInvalid => Invalid | RVal t _ => kind_of env t end.
  (** Value.Type(), which panics on the invalid Value *)
  Definition type_rv (v : rvalue) : outcome ty := match v with RInvalid => Panicked | RVal t _ => Done t end.
  Definition nil_kind (k : kind) : bool :=
    match k with Chan | Func | Interface | Map | Pointer | Slice | UnsafePointer => true | _ => false end.
  Definition is_nil_payload (p : payload) : bool :=
    match p with PPtr None | PNilable None | PIface None => true | _ => false end.
  (** Value.IsNil(), which panics unless the kind is one that can be nil *)
  Definition is_nil_rv (h : heap) (v : rvalue) : outcome bool :=
    match v with
    | RInvalid => Panicked
    | RVal t l => if nil_kind (kind_of env t) then Done (is_nil_payload (load h l)) else Panicked
    end.
  (** Value.Elem() of a pointer or interface *)
  Definition elem_rv (h : heap) (v : rvalue) : outcome rvalue :=
    match v with
    | RInvalid => Panicked
    | RVal t l =>
        match kind_of env t, load h l with
        | Pointer, PPtr None => Done RInvalid
        | Pointer, PPtr (Some a) => match elem env t with Some u => Done (RVal u (At a)) | None => Panicked end
        | Interface, PIface d => Done (value_of d)
        | _, _ => Panicked
        end
    end.
  (** A payload a value of the type can have *)
  Definition fits (t : ty) (p : payload) : Prop :=
    match kind_of env t, p with
    | Pointer, PPtr _ => True
    | (Chan | Func | Map | Slice | UnsafePointer), PNilable _ => True
    | Interface, PIface _ => True
    | (Struct | Array), PStruct _ => True
    | (Bool | Int | Int8 | Int16 | Int32 | Int64 | Uint | Uint8 | Uint16 | Uint32 | Uint64 | Uintptr
       | Float32 | Float64 | Complex64 | Complex128 | String), PScalar _ => True
    | _, _ => False
    end.
  (** Assigning a value of static type [t] to a parameter of type any: an interface's dynamic value, never an interface *)
  Definition to_any (t : ty) (p : payload) : option (ty * payload) :=
    match p with PIface d => d | _ => Some (t, p) end.
End Values.

(** Value.IsZero() *)
Fixpoint zero_payload (p : payload) : bool :=
  match p with
  | PScalar z => Z.eqb z 0
  | PPtr None | PNilable None | PIface None => true
  | PStruct fs => forallb zero_payload fs
  | _ => false
  end.
