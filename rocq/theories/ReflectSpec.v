(** What the pointer and nil helpers are to be, stated without their loops. *)
From Verif Require Import Base GoVal.
Open Scope nat_scope.

Section Spec.
  Variable env : tyenv.

  (** [t] is [n] pointers to [b], and [b] is not a pointer type *)
  Inductive pointers : nat -> ty -> ty -> Prop :=
  | pointers_base t : kind_of env t <> Pointer -> pointers 0 t t
  | pointers_ptr n t u b : elem env t = Some u -> pointers n u b -> pointers (S n) t b.

  (** A type that is infinitely many pointers, such as [type P *P] *)
  Definition endless (t : ty) : Prop :=
    exists f : nat -> ty, f 0 = t /\ forall n, elem env (f n) = Some (f (S n)).

  (** [w] is what following [n] non-nil pointers from [v] leads to *)
  Inductive follows (h : heap) : nat -> rvalue -> rvalue -> Prop :=
  | follows_here v : follows h 0 v v
  | follows_next n t l u a w : elem env t = Some u -> load h l = PPtr (Some a) ->
      follows h n (RVal u (At a)) w -> follows h (S n) (RVal t l) w.

  (** [v] is a nil pointer whose type is [n] pointers to a non-pointer *)
  Definition nil_pointer (h : heap) (n : nat) (v : rvalue) : Prop :=
    exists t l b, v = RVal t l /\ pointers n t b /\ n <> 0 /\ load h l = PPtr None.

  (** A heap in which every cell holds what its type allows and pointers point to cells of the right type *)
  Definition target_ok (types : nat -> option ty) (t : ty) (p : payload) : Prop :=
    fits env t p /\ forall u a, elem env t = Some u -> p = PPtr (Some a) -> types a = Some u.
  Definition heap_ok (types : nat -> option ty) (h : heap) : Prop :=
    forall a t, types a = Some t -> target_ok types t (h a).
  Definition value_ok (types : nat -> option ty) (v : rvalue) : Prop :=
    match v with
    | RInvalid => True
    | RVal t (Temp p) => target_ok types t p
    | RVal t (At a) => types a = Some t
    end.

  (** A value that is nil: the invalid Value, or a nil chan, func, interface, map, pointer or slice *)
  Definition nil_kinds (k : kind) : Prop :=
    k = Chan \/ k = Func \/ k = Interface \/ k = Map \/ k = Pointer \/ k = Slice.
  Definition nil_payload (p : payload) : Prop := p = PPtr None \/ p = PNilable None \/ p = PIface None.

  (** The zero value of a type *)
  Fixpoint all_zero (p : payload) : Prop :=
    match p with
    | PScalar z => z = 0%Z
    | PStruct fs => (fix all l := match l with [] => True | x :: r => all_zero x /\ all r end) fs
    | _ => nil_payload p
    end.
End Spec.

(** A value of type any: nil, or a dynamic value, whose type is not an interface type *)
Definition any_ok (env : tyenv) (d : option (ty * payload)) : Prop :=
  match d with None => True | Some (t, p) => kind_of env t <> Interface /\ fits env t p end.
(** A variable of static type [t] holding [p] *)
Definition var_ok (env : tyenv) (t : ty) (p : payload) : Prop :=
  fits env t p /\ (forall d, p = PIface d -> any_ok env d).
(** nil as the programmer sees it: a nil interface, or (also inside an interface) a nil chan, func, map, pointer, slice *)
Definition any_nil (env : tyenv) (d : option (ty * payload)) : Prop :=
  match d with None => True | Some (t, p) => nil_kinds (kind_of env t) /\ nil_payload p end.

(** The type [t] was declared with the unnamed type [u] on the right: type t u *)
Definition declared_as (env : tyenv) (t u : ty) : Prop :=
  exists n, t = TNamed n /\
    ((exists e, env n = UPtr e /\ u = TPtr e) \/ (exists k i, env n = UOther k i /\ u = TOther k i)).
(** Assignment of the value [p] of type [t] to a variable of type [a] stores [q] there; [implements] is Go's relation between
    types and interface types *)
Inductive assigned (env : tyenv) (implements : ty -> ty -> bool) : ty -> payload -> ty -> payload -> Prop :=
| assigned_same t p : assigned env implements t p t p
| assigned_declared t p a : declared_as env t a \/ declared_as env a t -> assigned env implements t p a p
| assigned_interface t p a : kind_of env a = Interface -> kind_of env t <> Interface -> implements t a = true ->
    assigned env implements t p a (PIface (Some (t, p)))
| assigned_other_interface t d a : kind_of env a = Interface -> kind_of env t = Interface -> implements t a = true ->
    assigned env implements t (PIface d) a (PIface d).
