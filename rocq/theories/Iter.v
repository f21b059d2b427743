(** Model of iter/iter.go: IterImpl, OfIter, Next, Unread, SetError, Maybe. *)
From Verif Require Import Base.
Open Scope go_scope.

(** iter/iter.go:39-43, type IterImpl.  [fn_live] is [iterFn != nil]; [src] holds the captured variables of
    iterFn; [buffer] is in Go order (append at the end). *)
Record impl (S T : Type) : Type := mkImpl {
  fn_live : bool;
  src : S;
  buffer : list T;
  last_err : option err
}.
Arguments mkImpl {S T}.
Arguments fn_live {S T}.
Arguments src {S T}.
Arguments buffer {S T}.
Arguments last_err {S T}.

(** iter/iter.go:57-63, OfIter with a non-nil function (a nil one panics). *)
Definition ofIter {S T} (s : S) : impl S T := mkImpl true s [] None.

(** iter/iter.go:150-180, IterImpl.Next.  [lastErr] is nil only while [iterFn] is live, so the last branch
    returns [last_err] as it is, nil included, as the code would. *)
Definition next {S T} `{Zero T} (fn : stepfn S T) : stepfn (impl S T) T := fun fuel it =>
  match nth_error (buffer it) (length (buffer it) - 1) with
  | Some val =>
      Done ((val, None),
            mkImpl (fn_live it) (src it) (firstn (length (buffer it) - 1) (buffer it)) (last_err it))
  | None =>
      if fn_live it then
        let! (r, s') := fn fuel (src it) in
        match r with
        | (val, None) => Done ((val, None), mkImpl true s' (buffer it) (last_err it))
        | (_, Some e) => Done ((zv, Some e), mkImpl false s' (buffer it) (Some e))
        end
      else Done ((zv, last_err it), it)
  end.

(** iter/iter.go:183-185, IterImpl.Unread. *)
Definition unread {S T} (it : impl S T) (v : T) : impl S T :=
  mkImpl (fn_live it) (src it) (buffer it ++ [v]) (last_err it).

(** iter/iter.go:190-192 with union/union.go OfResultError: the result of Next as a single sum. *)
Definition maybe {S T} (nx : stepfn S T) : nat -> S -> outcome ((T + err) * S) := fun fuel s =>
  let! (r, s') := nx fuel s in
  match r with
  | (v, None) => Done (inl v, s')
  | (_, Some e) => Done (inr e, s')
  end.

(** iter/iter.go:195-209, the function SetError passes to OfIter. [nx] is the Next method of any Iter. *)
Definition set_error_gen {S T} `{Zero T} (nx : stepfn S T) (e : err) : stepfn S T := fun fuel s =>
  let! (r, s') := nx fuel s in
  match r with
  | (v, None) => Done ((v, None), s')
  | (_, Some _) => Done ((zv, Some e), s')
  end.

(** Operations a client performs on one iterator, for statements about histories. *)
Inductive iop (T : Type) := ONext | OUnread (v : T).
Arguments ONext {T}.
Arguments OUnread {T} v.

(** Outputs of a history: one entry per ONext. *)
Fixpoint run_ops {S T} `{Zero T} (fn : stepfn S T) (fuel : nat) (ops : list (iop T)) (it : impl S T)
  : outcome (list (ret T) * impl S T) :=
  match ops with
  | [] => Done ([], it)
  | OUnread v :: ops' => run_ops fn fuel ops' (unread it v)
  | ONext :: ops' =>
      let! (r, it1) := next fn fuel it in
      let! (rs, it2) := run_ops fn fuel ops' it1 in
      Done (r :: rs, it2)
  end.
