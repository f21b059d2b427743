(** Specification vocabulary for C116: what a map contains after some writes. *)
From Verif Require Import Base GoMap MapLive.
Open Scope nat_scope.

Section Spec.
  Context {K V : Type}.
  Variable eqb : K -> K -> bool.
  (** the map after the writes among the events *)
  Fixpoint after (m : list (K * V)) (es : list (event K V)) : list (K * V) :=
    match es with
    | [] => m
    | ESet k v :: es' => after (mset eqb m k v) es'
    | EDel k :: es' => after (mdel eqb m k) es'
    | ENext _ :: es' => after m es'
    end.
  (** how many of the writes create an entry *)
  Fixpoint creations (m : list (K * V)) (es : list (event K V)) : nat :=
    match es with
    | [] => 0
    | ESet k v :: es' => match mget eqb m k with None => 1 | Some _ => 0 end + creations (mset eqb m k v) es'
    | EDel k :: es' => creations (mdel eqb m k) es'
    | ENext _ :: es' => creations m es'
    end.
  (** no call of the iterator *)
  Definition quiet (es : list (event K V)) : Prop := forall r, ~ In (ENext r) es.
  (** the entries delivered *)
  Fixpoint delivered (es : list (event K V)) : list (K * V) :=
    match es with
    | [] => []
    | ENext (kv, None) :: es' => kv :: delivered es'
    | _ :: es' => delivered es'
    end.
  (** [k] is in the map all the time *)
  Definition always_in (m : list (K * V)) (es : list (event K V)) (k : K) : Prop :=
    forall a b, es = a ++ b -> mget eqb (after m a) k <> None.
End Spec.
(** the value under the next key *)
Definition next_key {V} (kv : nat * V) : nat * V := (S (fst kv), snd kv).
