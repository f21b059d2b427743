(** Model of union/union.go.  Not modelled: the String methods (fmt).  Errors are modelled as [err]. *)
From Verif Require Import Base GoVal Reflect.
Open Scope nat_scope.

(** union/union.go:22-29, Which *)
Inductive which : Set := WT | WU | WV | WW.
Definition which_eqb (a b : which) : bool :=
  match a, b with WT, WT | WU, WU | WV, WV | WW, WW => true | _, _ => false end.
(** union/union.go:191-197, check *)
Definition check {R} (asked have : which) (res : R) : outcome R := if which_eqb asked have then Done res else Panicked.

Section Unions.
  Context {T U V W : Type} {ZT : Zero T} {ZU : Zero U} {ZV : Zero V} {ZW : Zero W}.

  (** union/union.go:47-51, Two; 54-59, Three; 62-68, Four *)
  Record two := Two { t2 : T; u2 : U; which2 : which }.
  Record three := Three { t3 : T; u3 : U; v3 : V; which3 : which }.
  Record four := Four { t4 : T; u4 : U; v4 : V; w4 : W; which4 : which }.
  (** the zero values: var s Two[T, U] *)
  Definition zero2 : two := Two zv zv WT.
  Definition zero3 : three := Three zv zv zv WT.
  Definition zero4 : four := Four zv zv zv zv WT.

  (** union/union.go:85-127, the constructors *)
  Definition of2t (t : T) : two := Two t zv WT.
  Definition of2u (u : U) : two := Two zv u WU.
  Definition of3t (t : T) : three := Three t zv zv WT.
  Definition of3u (u : U) : three := Three zv u zv WU.
  Definition of3v (v : V) : three := Three zv zv v WV.
  Definition of4t (t : T) : four := Four t zv zv zv WT.
  Definition of4u (u : U) : four := Four zv u zv zv WU.
  Definition of4v (v : V) : four := Four zv zv v zv WV.
  Definition of4w (w : W) : four := Four zv zv zv w WW.

  (** union/union.go:208-210 T, 213-216 SetT, 220-222 U, 225-228 SetU *)
  Definition get2t (s : two) : outcome T := check WT (which2 s) (t2 s).
  Definition set2t (t : T) (s : two) : two := Two t (u2 s) WT.
  Definition get2u (s : two) : outcome U := check WU (which2 s) (u2 s).
  Definition set2u (u : U) (s : two) : two := Two (t2 s) u WU.

  (** union/union.go:249-281, the methods of Three *)
  Definition get3t (s : three) : outcome T := check WT (which3 s) (t3 s).
  Definition set3t (t : T) (s : three) : three := Three t (u3 s) (v3 s) WT.
  Definition get3u (s : three) : outcome U := check WU (which3 s) (u3 s).
  Definition set3u (u : U) (s : three) : three := Three (t3 s) u (v3 s) WU.
  Definition get3v (s : three) : outcome V := check WV (which3 s) (v3 s).
  Definition set3v (v : V) (s : three) : three := Three (t3 s) (u3 s) v WV.

  (** union/union.go:304-348, the methods of Four *)
  Definition get4t (s : four) : outcome T := check WT (which4 s) (t4 s).
  Definition set4t (t : T) (s : four) : four := Four t (u4 s) (v4 s) (w4 s) WT.
  Definition get4u (s : four) : outcome U := check WU (which4 s) (u4 s).
  Definition set4u (u : U) (s : four) : four := Four (t4 s) u (v4 s) (w4 s) WU.
  Definition get4v (s : four) : outcome V := check WV (which4 s) (v4 s).
  Definition set4v (v : V) (s : four) : four := Four (t4 s) (u4 s) v (w4 s) WV.
  Definition get4w (s : four) : outcome W := check WW (which4 s) (w4 s).
  Definition set4w (w : W) (s : four) : four := Four (t4 s) (u4 s) (v4 s) w WW.
End Unions.
Arguments two : clear implicits.
Arguments three : clear implicits.
Arguments four : clear implicits.

(** Maybe[T].  [isnil] is funcs.IsNilValue at type T (Reflect.v: [is_nil_value]). *)
Section MaybeT.
  Context {T : Type} {ZT : Zero T} (isnil : T -> bool).
  (** union/union.go:71-74, Maybe *)
  Record maybe := Maybe { mv : T; mpresent : bool }.
  (** union/union.go:131-133, Of *)
  Definition maybe_of (t : T) : maybe := Maybe t (negb (isnil t)).
  (** union/union.go:136-138, Empty *)
  Definition maybe_empty : maybe := Maybe zv false.
  (** union/union.go:142-147, Present *)
  Definition maybe_present (t : T) : outcome maybe := if isnil t then Panicked else Done (Maybe t true).
  (** union/union.go:402-408, Set *)
  Definition maybe_set (t : T) (m : maybe) : maybe := Maybe t (negb (isnil t)).
  (** union/union.go:151-158, First *)
  Definition maybe_first (l : list T) : maybe := match l with [] => maybe_empty | x :: _ => maybe_set x maybe_empty end.
  (** union/union.go:377-383, Get *)
  Definition maybe_get (m : maybe) : outcome T := if mpresent m then Done (mv m) else Panicked.
  (** union/union.go:386-388, OrElse *)
  Definition maybe_or_else (m : maybe) (e : T) : T := if mpresent m then mv m else e.
  (** union/union.go:391-399, OrError *)
  Definition maybe_or_error (m : maybe) (e : option err) : ret T := if mpresent m then (mv m, None) else (zv, e).
  (** union/union.go:411-415, SetEmpty *)
  Definition maybe_set_empty (m : maybe) : maybe := Maybe zv false.
  (** union/union.go:418-428, SetOrError; true is errPresentMaybe *)
  Definition maybe_set_or_error (t : T) (m : maybe) : maybe * bool :=
    if mpresent m then (m, true) else (maybe_set t m, false).
End MaybeT.
Arguments maybe : clear implicits.

(** Result[R] *)
Section ResultR.
  Context {R : Type} {ZR : Zero R}.
  (** reflect.ValueOf(r).IsZero(): [None] when it panics, which it does for a nil interface *)
  Variable iszero : R -> option bool.
  (** union/union.go:77-80, Result *)
  Record result := Result { rr : R; re : option err }.
  (** union/union.go:161-163, OfResult *)
  Definition of_result (r : R) : result := Result r None.
  (** union/union.go:167-173, OfError *)
  Definition of_error (e : option err) : outcome result :=
    match e with None => Panicked | Some _ => Done (Result zv e) end.
  (** union/union.go:177-186, OfResultError *)
  Definition of_result_error (r : R) (e : option err) : outcome result :=
    match e with
    | None => Done (Result r e)
    | Some _ => match iszero r with Some true => Done (Result r e) | _ => Panicked end
    end.
  (** union/union.go:443-460, HasResult, HasError, Get, Error *)
  Definition has_result (r : result) : bool := match re r with None => true | Some _ => false end.
  Definition has_error (r : result) : bool := match re r with None => false | Some _ => true end.
End ResultR.
Arguments result : clear implicits.

(** reflect.ValueOf(r).IsZero() for a variable of static type [t] *)
Definition is_zero_var (t : ty) (p : payload) : option bool :=
  match to_any t p with None => None | Some (_, q) => Some (zero_payload q) end.
