(** Model of union/reflect/reflect.go: access to a union.Maybe by reflection. *)
From Verif Require Import Base GoVal Reflect Union.
Open Scope nat_scope.

(** The struct union.Maybe in memory: its fields v and present (union/union.go:71-74) *)
Definition maybe_payload (m : maybe payload) : payload := PStruct [mv m; PScalar (if mpresent m then 1 else 0)].
Definition payload_maybe (p : payload) : outcome (maybe payload) :=
  match p with PStruct [v; PScalar b] => Done (Maybe v (negb (Z.eqb b 0))) | _ => Panicked end.

Section MR.
  Variable env : tyenv.
  (** the zero value of a type *)
  Variable zero_val : ty -> payload.
  (** whether a value of the first type may be assigned to an interface of the second *)
  Variable implements : ty -> ty -> bool.

  (** union/reflect/reflect.go:25-34, GetMaybeType; [None] is nil *)
  Definition get_maybe_type (fuel : nat) (t : ty) : outcome (option ty) :=
    obind (deref_type env fuel t) (fun d => Done (match d with TMaybe a => Some a | _ => None end)).

  (** union/reflect/reflect.go:40-44, safeMaybeAccess *)
  Definition safe_maybe_access (fuel : nat) (h : heap) (v : rvalue) : outcome bool :=
    if negb (is_valid v) then Done false else
    obind (type_rv v) (fun t =>
    obind (get_maybe_type fuel t) (fun a =>
    match a with
    | None => Done false
    | Some _ => if negb (kind_eqb (kind_rv env v) Pointer) then Done true
                else obind (is_nil_rv env h v) (fun n => Done (negb n))
    end)).

  (** reflect's MethodByName(name).Call on the methods of Maybe with a value receiver: the Value must be a Maybe or a
      pointer to one of a type without a name (defined pointer types have no methods); a nil pointer panics *)
  Definition maybe_receiver (h : heap) (v : rvalue) : outcome (ty * maybe payload) :=
    match v with
    | RVal (TMaybe a) l => obind (payload_maybe (load h l)) (fun m => Done (a, m))
    | RVal (TPtr (TMaybe a)) l =>
        match load h l with
        | PPtr (Some x) => obind (payload_maybe (h x)) (fun m => Done (a, m))
        | _ => Panicked
        end
    | _ => Panicked
    end.

  (** union/reflect/reflect.go:50-52, MaybeValueIsPresent *)
  Definition maybe_value_is_present (fuel : nat) (h : heap) (v : rvalue) : outcome bool :=
    obind (safe_maybe_access fuel h v) (fun b =>
    if b then obind (deref_value_max1 env fuel h v) (fun d => obind (maybe_receiver h d) (fun am => Done (mpresent (snd am))))
    else Done false).

  (** union/reflect/reflect.go:60-66, GetMaybeValue *)
  Definition get_maybe_value (fuel : nat) (h : heap) (v : rvalue) : outcome rvalue :=
    obind (maybe_value_is_present fuel h v) (fun b =>
    if b then
      obind (deref_value_max1 env fuel h v) (fun d =>
      obind (maybe_receiver h d) (fun am =>
      obind (maybe_get (snd am)) (fun p => Done (RVal (fst am) (Temp p)))))
    else Done RInvalid).

  (** the type itself, or what a defined type was defined as *)
  Definition underlying (t : ty) : ty :=
    match t with
    | TNamed n => match env n with UBasic k => TBasic k | UPtr u => TPtr u | UOther k i => TOther k i end
    | _ => t
    end.
  (** reflect's directlyAssignable: the same type, or two types not both named that are defined the same way.  (Left out: a
      bidirectional channel may be assigned to an unnamed channel type of one direction.) *)
  Definition directly_assignable (a t : ty) : bool :=
    ty_eqb t a || (negb (has_name t && has_name a) && ty_eqb (underlying t) (underlying a)).
  (** Call: the argument must be valid and assignable to the parameter's type; a value that becomes an interface keeps its type *)
  Definition argument (h : heap) (a : ty) (val : rvalue) : outcome payload :=
    match val with
    | RInvalid => Panicked
    | RVal t l =>
        if directly_assignable a t then Done (load h l)
        else if kind_eqb (kind_of env a) Interface && implements t a then Done (PIface (to_any t (load h l)))
        else Panicked
    end.

  (** dst.CanAddr() *)
  Definition can_addr (v : rvalue) : bool := match v with RVal _ (At _) => true | _ => false end.

  (** union/reflect/reflect.go:70-81, SetMaybeValue; true is the nil error *)
  Definition set_maybe_value (fuel : nat) (h : heap) (dst val : rvalue) : outcome (heap * bool) :=
    obind (safe_maybe_access fuel h dst) (fun b =>
    if negb b then Done (h, false) else
    if negb (kind_eqb (kind_rv env dst) Pointer) && negb (can_addr dst) then Done (h, false) else
    obind (deref_value env fuel h dst) (fun d =>
    match d with
    | RVal (TMaybe a) (At x) =>
        obind (argument h a val) (fun p =>
        obind (payload_maybe (h x)) (fun m =>
        obind (is_nil_value env (to_any a p)) (fun n =>
        Done (hset h x (maybe_payload (maybe_set (fun _ => n) p m)), true))))
    | _ => Panicked
    end)).

  (** union/reflect/reflect.go:85-96, SetMaybeValueEmpty *)
  Definition set_maybe_value_empty (fuel : nat) (h : heap) (dst : rvalue) : outcome (heap * bool) :=
    obind (safe_maybe_access fuel h dst) (fun b =>
    if negb b then Done (h, false) else
    if negb (kind_eqb (kind_rv env dst) Pointer) && negb (can_addr dst) then Done (h, false) else
    obind (deref_value env fuel h dst) (fun d =>
    match d with
    | RVal (TMaybe a) (At x) =>
        obind (payload_maybe (h x)) (fun m => Done (hset h x (maybe_payload (@maybe_set_empty _ (zero_val a) m)), true))
    | _ => Panicked
    end)).
End MR.
