(** Model of reflect/reflect.go, and of the nil helpers of funcs/funcs.go:1002-1071.
    FieldsByName and GetFieldByName are in Fields.v.  Not modelled: the texts of the error messages. *)
From Verif Require Import Base GoVal.
Open Scope nat_scope.

Section Reflect.
  Variable env : tyenv.

  (** reflect/reflect.go:56-62, DerefType; [fuel] bounds the iterations of the loop *)
  Fixpoint deref_type (fuel : nat) (t : ty) : outcome ty :=
    match fuel with
    | O => OutOfFuel
    | S fuel => if kind_eqb (kind_of env t) Pointer then
                  match elem env t with Some u => deref_type fuel u | None => Panicked end
                else Done t
    end.

  (** reflect/reflect.go:66-78, DerefTypeMaxOnePtr *)
  Fixpoint deref_type_max1 (fuel : nat) (res : ty) : outcome ty :=
    match fuel with
    | O => OutOfFuel
    | S fuel =>
        if kind_eqb (kind_of env res) Pointer then
          match elem env res with
          | None => Panicked
          | Some d => if kind_eqb (kind_of env d) Pointer then deref_type_max1 fuel d else Done res
          end
        else Done res
    end.

  (** reflect/reflect.go:215-222, NumPointers; [res] is the counter *)
  Fixpoint num_pointers (fuel : nat) (t : ty) (res : nat) : outcome nat :=
    match fuel with
    | O => OutOfFuel
    | S fuel => if kind_eqb (kind_of env t) Pointer then
                  match elem env t with Some u => num_pointers fuel u (S res) | None => Panicked end
                else Done res
    end.

  (** reflect/reflect.go:82-93, DerefValue *)
  Fixpoint deref_value (fuel : nat) (h : heap) (v : rvalue) : outcome rvalue :=
    match fuel with
    | O => OutOfFuel
    | S fuel =>
        if kind_eqb (kind_rv env v) Pointer then
          obind (is_nil_rv env h v) (fun n =>
          if n then Done RInvalid else obind (elem_rv env h v) (deref_value fuel h))
        else Done v
    end.

  (** reflect/reflect.go:116-135, DerefValueMaxOnePtr *)
  Fixpoint deref_value_max1 (fuel : nat) (h : heap) (v : rvalue) : outcome rvalue :=
    match fuel with
    | O => OutOfFuel
    | S fuel =>
        if kind_eqb (kind_rv env v) Pointer then
          obind (is_nil_rv env h v) (fun n =>
          obind (type_rv v) (fun t =>
          match elem env t with
          | None => Panicked
          | Some e =>
              if n && kind_eqb (kind_of env e) Pointer then Done RInvalid
              else obind (elem_rv env h v) (fun d =>
                   if kind_eqb (kind_rv env d) Pointer then deref_value_max1 fuel h d else Done v)
          end))
        else Done v
    end.

  (** reflect/reflect.go:158-161, SetPointerValue; [convert] is Value.Convert to a type, which panics when the type of
      the value cannot be converted.  Value.Set panics if the target is not addressable. *)
  Definition set_pointer_value (convert : rvalue -> ty -> outcome payload) (fuel : nat) (h : heap) (dst val : rvalue) : outcome heap :=
    obind (deref_value fuel h dst) (fun d =>
    obind (type_rv d) (fun t =>
    obind (convert val t) (fun p =>
    match d with RVal _ (At a) => Done (hset h a p) | _ => Panicked end))).

  (** reflect/reflect.go:164-167, IsBigPtr *)
  Definition is_big_ptr (t : ty) : bool := match t with TPtr (TBig _) => true | _ => false end.
  (** reflect/reflect.go:171-174, IsSignedInteger; 178-181, IsUnsignedInteger; 184-187, IsNumeric *)
  Definition is_signed (t : ty) : bool :=
    let k := kind_num (kind_of env t) in Nat.leb (kind_num Int) k && Nat.leb k (kind_num Int64).
  Definition is_unsigned (t : ty) : bool :=
    let k := kind_num (kind_of env t) in Nat.leb (kind_num Uint) k && Nat.leb k (kind_num Uint64).
  Definition is_numeric (t : ty) : bool :=
    let k := kind_num (kind_of env t) in
    (Nat.leb (kind_num Int) k && Nat.leb k (kind_num Float64) && negb (Nat.eqb k (kind_num Uintptr))) || is_big_ptr t.

  (** reflect/reflect.go:195-202, IsNillable, on a Type ([None] is the nil Type) *)
  Definition nillable_kind (k : kind) : bool :=
    kind_eqb k Invalid || Nat.leb (kind_num Chan) (kind_num k) && Nat.leb (kind_num k) (kind_num Slice).
  Definition is_nillable_type (t : option ty) : bool :=
    match t with None => true | Some t => nillable_kind (kind_of env t) end.
  (** the same on a Value *)
  Definition is_nillable_value (v : rvalue) : bool := nillable_kind (kind_rv env v).

  (** reflect/reflect.go:205-207, IsNil *)
  Definition is_nil (h : heap) (v : rvalue) : outcome bool :=
    if negb (is_valid v) then Done true
    else obind (type_rv v) (fun t => if is_nillable_type (Some t) then is_nil_rv env h v else Done false).

  (** reflect/reflect.go:22-39, the keys of kindToType; every one is mapped to its predeclared type *)
  Definition base_kind (k : kind) : bool :=
    match k with
    | Bool | Int | Int8 | Int16 | Int32 | Int64 | Uint | Uint8 | Uint16 | Uint32 | Uint64 | Float32 | Float64
    | Complex64 | Complex128 | String => true
    | _ => false
    end.
  (** reflect/reflect.go:209-212, IsPrimitive on a Type and on a Value *)
  Definition is_primitive_type (t : ty) : bool := base_kind (kind_of env t).
  Definition is_primitive_value (v : rvalue) : bool := base_kind (kind_rv env v).

  (** reflect/reflect.go:229-237, ResolveValueType *)
  Definition resolve_value_type (h : heap) (v : rvalue) : rvalue :=
    match v with
    | RVal t l => if kind_eqb (kind_of env t) Interface then
                    match load h l with PIface d => value_of d | _ => v end else v
    | RInvalid => v
    end.

  (** reflect/reflect.go:243-250, TypeAssert; true is the nil error *)
  Definition type_assert (h : heap) (v : rvalue) (t : ty) : outcome bool :=
    obind (type_rv (resolve_value_type h v)) (fun rt => Done (ty_eqb rt t)).

  (** k.String() != typ.String(): a kind's name is the name of its predeclared type, and no other type is printed so
      (defined types are printed with their package) *)
  Definition predeclared (t : ty) : bool := match t with TBasic _ => true | _ => false end.
  (** reflect/reflect.go:269-278, TypeToBaseType; [None] is nil *)
  Definition type_to_base (t : ty) : option ty :=
    if base_kind (kind_of env t) && negb (predeclared t) then Some (TBasic (kind_of env t)) else None.

  (** reflect/reflect.go:282-298, ValueToBaseType.  Converting a primitive subtype to its base type keeps the payload (and
      makes a temporary); converting a pointer keeps the address and panics if the pointer type has a name, since then the
      two types are not convertible. *)
  Definition value_to_base (h : heap) (v : rvalue) : outcome rvalue :=
    match v with
    | RInvalid => Done v
    | RVal t l =>
        let k := kind_of env t in
        if base_kind k && negb (predeclared t) then Done (RVal (TBasic k) (Temp (load h l)))
        else if kind_eqb k Pointer then
          obind (elem_rv env h v) (fun e =>
          match e with
          | RInvalid => Done v
          | RVal u _ =>
              let k' := kind_of env u in
              if base_kind k' && negb (predeclared u) then
                if has_name t then Panicked else Done (RVal (TPtr (TBasic k')) (Temp (load h l)))
              else Done v
          end)
        else Done v
    end.

  (** reflect/reflect.go:311-326 (ValueMaxOnePtrType); [None] is nil *)
  Definition value_max1_type (v : rvalue) : option ty :=
    match v with
    | RInvalid => None
    | RVal t _ =>
        if kind_eqb (kind_of env t) Pointer then
          match elem env t with
          | Some e => if kind_eqb (kind_of env e) Pointer then None else Some e
          | None => None
          end
        else Some t
    end.

  (** funcs/funcs.go:1056-1071, Nillable *)
  Definition f_nillable (t : ty) : bool :=
    match kind_of env t with Chan | Func | Map | Pointer | Slice => true | _ => false end.
  (** funcs/funcs.go:1049-1053, MustBeNillable on reflect.TypeOf of a nil interface or of a value *)
  Definition must_be_nillable (d : option ty) : outcome unit :=
    match d with None => Panicked | Some t => if f_nillable t then Done tt else Panicked end.
  (** funcs/funcs.go:1017-1021, IsNilValue *)
  Definition is_nil_value (d : option (ty * payload)) : outcome bool :=
    let rv := value_of d in
    if negb (is_valid rv) then Done true
    else obind (type_rv rv) (fun t => if f_nillable t then is_nil_rv env (fun _ => PScalar 0) rv else Done false).
  (** reflect.TypeOf of a variable of type [t] that holds [p] *)
  Definition dyn_type (t : ty) (p : payload) : option ty :=
    match to_any t p with None => None | Some (u, _) => Some u end.
  (** funcs/funcs.go:1007-1014 IsNil[T]() and 1039-1046 IsNonNil[T](), built for the static type [t] with zero value [z] and
      then applied to the value [p] *)
  Definition f_is_nil (t : ty) (z p : payload) : outcome bool :=
    obind (must_be_nillable (dyn_type t z)) (fun _ => is_nil_rv env (fun _ => PScalar 0) (value_of (to_any t p))).
  Definition f_is_non_nil (t : ty) (z p : payload) : outcome bool :=
    obind (must_be_nillable (dyn_type t z)) (fun _ =>
    obind (is_nil_rv env (fun _ => PScalar 0) (value_of (to_any t p))) (fun b => Done (negb b))).
  (** funcs/funcs.go:1025-1034, MustNonNilValue *)
  Definition must_non_nil (t : ty) (p : payload) : outcome payload :=
    let rv := value_of (to_any t p) in
    obind (type_rv rv) (fun u =>
    obind (must_be_nillable (Some u)) (fun _ =>
    obind (is_nil_value (to_any t p)) (fun b => if b then Panicked else Done p))).
  (** funcs/funcs.go:1132-1138, MustNonZero; ValueOf of a nil interface is invalid and its IsZero panics *)
  Definition must_non_zero (t : ty) (p : payload) : outcome payload :=
    match to_any t p with
    | None => Panicked
    | Some (_, q) => if zero_payload q then Panicked else Done p
    end.
End Reflect.
