(** What a REST mux is to do with a list of registrations. *)
From Verif Require Import Base SliceMem Rest.
Open Scope nat_scope.

Section Spec.
  Context {regex handler : Type}.
  Variables (compile : str -> option regex) (find : regex -> str -> option (list str)).
  Notation entry := (entry regex handler).

  (** The entry's pattern matches the path *)
  Definition matches (rq : request) (e : entry) : Prop := find (snd (fst e)) (rpath rq) <> None.
  (** The response allowed for a request, given the registrations in order *)
  Inductive answers (es : list entry) (rq : request) : response handler -> Prop :=
  | answers_served pre m re h parts post : es = pre ++ (m, re, h) :: post -> m = rmethod rq -> find re (rpath rq) = Some parts ->
      (forall e, In e pre -> fst (fst e) = rmethod rq -> ~ matches rq e) -> answers es rq (Served h parts)
  | answers_405 : (forall e, In e es -> fst (fst e) = rmethod rq -> ~ matches rq e) -> (exists e, In e es /\ matches rq e) ->
      answers es rq (Status 405)
  | answers_404 : (forall e, In e es -> ~ matches rq e) -> answers es rq (Status 404).

  (** The registrations a history has made: an entry counts from the second step of its Handle call on.  [None] if two
      calls of Handle overlap. *)
  Fixpoint registered (pend : option (nat * entry)) (done : list entry) (es : list (event handler)) : option (list entry) :=
    match es with
    | [] => Some done
    | Handle1 t method pattern h :: r =>
        match handle_check compile method pattern h with
        | inl en => match pend with None => registered (Some (t, en)) done r | Some _ => None end
        | inr _ => registered pend done r
        end
    | Handle2 t :: r =>
        match pend with
        | Some (t', en) => if t =? t' then registered None (done ++ [en]) r else registered pend done r
        | None => registered pend done r
        end
    | _ :: r => registered pend done r
    end.

  (** How many steps goroutine [r] makes in a history *)
  Definition steps (r : nat) (es : list (event handler)) : nat :=
    length (filter (fun e => match e with Step r' => r' =? r | _ => false end) es).
  (** Goroutine [r] starts no request in a history *)
  Definition no_start (r : nat) (es : list (event handler)) : Prop := forall rq, ~ In (Start r rq) es.
End Spec.
