(** Specification vocabulary: what a Value in memory is the Value of, what memory it uses, and what a change of memory leaves alone. *)
From Verif Require Import Base GoMap SliceMem Union Rest Json JsonHeap.
Open Scope nat_scope.

Definition looked_up {A} (maps : list (list A)) (r : option nat) (m : list A) : Prop :=
  match r with None => m = [] | Some a => nth_error maps a = Some m end.

(** In memory [h] the Value [v] is the Value [t] of the model without memory (Json.v). *)
Inductive shows (h : heap) : hval -> value -> Prop :=
| sh_invalid : shows h HInvalid invalidValue
| sh_obj r m m' : looked_up (maps_v h) r m -> shows_m h m m' -> shows h (HObj r) (mkV TObject (of4t m'))
| sh_arr s l : valid (arrs_v h) s -> shows_l h (contents (arrs_v h) s) l -> shows h (HArr s) (mkV TArray (of4u l))
| sh_str s : shows h (HStr s) (stringToValue s)
| sh_num s : shows h (HNum s) (number_of_str s)
| sh_bool b : shows h (HBool b) (boolToValue b)
| sh_null : shows h HNull nullValue
with shows_m (h : heap) : list (str * hval) -> list (str * value) -> Prop :=
| sm_nil : shows_m h [] []
| sm_cons k v t m m' : shows h v t -> shows_m h m m' -> shows_m h ((k, v) :: m) ((k, t) :: m')
with shows_l (h : heap) : list hval -> list value -> Prop :=
| sl_nil : shows_l h [] []
| sl_cons v t l l' : shows h v t -> shows_l h l l' -> shows_l h (v :: l) (t :: l').

(** The same for values of type any; what toValue does not know is a value that cannot be converted, or nil. *)
Inductive shows_any (h : heap) : hany -> gany -> Prop :=
| sa_map r m m' : looked_up (maps_a h) r m -> shows_am h m m' -> shows_any h (GMap r) (AMap m')
| sa_slice s l : valid (arrs_a h) s -> shows_al h (contents (arrs_a h) s) l -> shows_any h (GSlice s) (ASlice l)
| sa_bool b : shows_any h (GBool b) (ABool b)
| sa_nil : shows_any h GNil ANil
| sa_string s : shows_any h (GString s) (AString s)
| sa_number s : shows_any h (GNumString s) (ANumString s)
| sa_named s : shows_any h (GNamedString s) (ANamedString s)
| sa_int z : shows_any h (GInt z) (AInt z)
| sa_other r : shows_any h (GOther r) (AOther r)
| sa_mapv a : shows_any h (GMapV (Some a)) (AOther (inr errConvert))
| sa_slicev s : shows_any h (GSliceV (Some s)) (AOther (inr errConvert))
| sa_mapv_nil : shows_any h (GMapV None) ANil
| sa_slicev_nil : shows_any h (GSliceV None) ANil
| sa_value v : shows_any h (GValue v) (AOther (inr errConvert))
with shows_am (h : heap) : list (str * hany) -> list (str * gany) -> Prop :=
| sam_nil : shows_am h [] []
| sam_cons k v t m m' : shows_any h v t -> shows_am h m m' -> shows_am h ((k, v) :: m) ((k, t) :: m')
with shows_al (h : heap) : list hany -> list gany -> Prop :=
| sal_nil : shows_al h [] []
| sal_cons v t l l' : shows_any h v t -> shows_al h l l' -> shows_al h (v :: l) (t :: l').

(** Places in memory, and those a Value or an any uses. *)
Inductive place : Set := MapA (n : nat) | ArrA (n : nat) | MapV (n : nat) | ArrV (n : nat).
Inductive uses (h : heap) : hval -> place -> Prop :=
| u_map a : uses h (HObj (Some a)) (MapV a)
| u_in_map a m k x p : nth_error (maps_v h) a = Some m -> In (k, x) m -> uses h x p -> uses h (HObj (Some a)) p
| u_arr d : uses h (HArr (Some d)) (ArrV (arr d))
| u_in_arr d x p : In x (contents (arrs_v h) (Some d)) -> uses h x p -> uses h (HArr (Some d)) p.
Inductive uses_any (h : heap) : hany -> place -> Prop :=
| ua_map a : uses_any h (GMap (Some a)) (MapA a)
| ua_in_map a m k x p : nth_error (maps_a h) a = Some m -> In (k, x) m -> uses_any h x p -> uses_any h (GMap (Some a)) p
| ua_arr d : uses_any h (GSlice (Some d)) (ArrA (arr d))
| ua_in_arr d x p : In x (contents (arrs_a h) (Some d)) -> uses_any h x p -> uses_any h (GSlice (Some d)) p
| ua_mapv a p : uses h (HObj (Some a)) p -> uses_any h (GMapV (Some a)) p
| ua_slicev d p : uses h (HArr (Some d)) p -> uses_any h (GSliceV (Some d)) p
| ua_value v p : uses h v p -> uses_any h (GValue v) p.

(** [p] is allocated in [h]; [p] holds the same in [h] and [h'] *)
Definition allocated (h : heap) (p : place) : Prop :=
  match p with
  | MapA n => n < length (maps_a h) | ArrA n => n < length (arrs_a h)
  | MapV n => n < length (maps_v h) | ArrV n => n < length (arrs_v h)
  end.
Definition same_at (h h' : heap) (p : place) : Prop :=
  match p with
  | MapA n => nth_error (maps_a h') n = nth_error (maps_a h) n | ArrA n => nth_error (arrs_a h') n = nth_error (arrs_a h) n
  | MapV n => nth_error (maps_v h') n = nth_error (maps_v h) n | ArrV n => nth_error (arrs_v h') n = nth_error (arrs_v h) n
  end.
(** nothing that was there changed *)
Definition kept (h h' : heap) : Prop := forall p, allocated h p -> same_at h h' p.
(** whether two memories agree but for one place *)
Definition but_for (q : place) (h h' : heap) : Prop := forall p, p <> q -> same_at h h' p.
