(** What the unions are to be: tagged sums; Maybe is an option. *)
From Verif Require Import Base GoVal Reflect Union.
Open Scope nat_scope.

(** The value a union holds: exactly one of its alternatives *)
Inductive alt4 (T U V W : Type) : Type := AT (t : T) | AU (u : U) | AV (v : V) | AW (w : W).
Arguments AT {T U V W}. Arguments AU {T U V W}. Arguments AV {T U V W}. Arguments AW {T U V W}.
Definition alt_tag {T U V W} (a : alt4 T U V W) : which := match a with AT _ => WT | AU _ => WU | AV _ => WV | AW _ => WW end.

(** What the four accessors of something holding [a] must do: the matching one returns the value, the others panic. *)
Definition sees {T U V W} (a : alt4 T U V W) (gt : outcome T) (gu : outcome U) (gv : outcome V) (gw : outcome W) : Prop :=
  match a with
  | AT t => gt = Done t /\ gu = Panicked /\ gv = Panicked /\ gw = Panicked
  | AU u => gt = Panicked /\ gu = Done u /\ gv = Panicked /\ gw = Panicked
  | AV v => gt = Panicked /\ gu = Panicked /\ gv = Done v /\ gw = Panicked
  | AW w => gt = Panicked /\ gu = Panicked /\ gv = Panicked /\ gw = Done w
  end.

(** Histories of setter calls; in one of a Two or Three the other alternatives do not occur *)
Section H.
  Context {T U V W : Type}.
  Definition run2 (s : two T U) (ops : list (alt4 T U Empty_set Empty_set)) : two T U :=
    fold_left (fun (s : two T U) (a : alt4 T U Empty_set Empty_set) => match a with AT t => set2t t s | AU u => set2u u s | AV v => match v with end | AW w => match w with end end) ops s.
  Definition run3 (s : three T U V) (ops : list (alt4 T U V Empty_set)) : three T U V :=
    fold_left (fun (s : three T U V) (a : alt4 T U V Empty_set) => match a with AT t => set3t t s | AU u => set3u u s | AV v => set3v v s | AW w => match w with end end) ops s.
  Definition run4 (s : four T U V W) (ops : list (alt4 T U V W)) : four T U V W :=
    fold_left (fun (s : four T U V W) (a : alt4 T U V W) => match a with AT t => set4t t s | AU u => set4u u s | AV v => set4v v s | AW w => set4w w s end) ops s.
  Context {ZT : Zero T} {ZU : Zero U} {ZV : Zero V} {ZW : Zero W}.
  (** A union as created: by a constructor, or the zero value, which holds the zero T *)
  Definition created2 (a : alt4 T U Empty_set Empty_set) : two T U :=
    match a with AT t => of2t t | AU u => of2u u | AV v => match v with end | AW w => match w with end end.
  Definition created3 (a : alt4 T U V Empty_set) : three T U V :=
    match a with AT t => of3t t | AU u => of3u u | AV v => of3v v | AW w => match w with end end.
  Definition created4 (a : alt4 T U V W) : four T U V W :=
    match a with AT t => of4t t | AU u => of4u u | AV v => of4v v | AW w => of4w w end.
  (** what is held after a history *)
  Definition held {A} (a0 : A) (ops : list A) : A := last ops a0.
End H.

(** Histories of a Maybe *)
Inductive mop (T : Type) : Type := MSet (t : T) | MSetEmpty | MSetOrError (t : T).
Arguments MSet {T}. Arguments MSetEmpty {T}. Arguments MSetOrError {T}.
Section M.
  Context {T : Type} {ZT : Zero T} (isnil : T -> bool).
  Definition run_mop (m : maybe T) (o : mop T) : maybe T :=
    match o with MSet t => maybe_set isnil t m | MSetEmpty => maybe_set_empty m | MSetOrError t => fst (maybe_set_or_error isnil t m) end.
  Definition some_of (t : T) : option T := if isnil t then None else Some t.
  Definition spec_mop (m : option T) (o : mop T) : option T :=
    match o with
    | MSet t => some_of t
    | MSetEmpty => None
    | MSetOrError t => match m with Some x => Some x | None => some_of t end
    end.
  (** A Maybe that behaves as the option [o] in every observation *)
  Definition behaves_as (m : maybe T) (o : option T) : Prop :=
    (mpresent m = true <-> o <> None) /\
    maybe_get m = match o with Some t => Done t | None => Panicked end /\
    (forall e, maybe_or_else m e = match o with Some t => t | None => e end) /\
    (forall e, maybe_or_error m e = match o with Some t => (t, None) | None => (zv, e) end) /\
    (forall t, snd (maybe_set_or_error isnil t m) = match o with Some _ => true | None => false end).
End M.

(** A chain of n unnamed pointers to a type *)
Fixpoint ptrs (n : nat) (t : ty) : ty := match n with O => t | S n => TPtr (ptrs n t) end.
