(** Model of rest/rest.go: ServeMux.  Regular expressions are abstract (package regexp); so are handlers.  net/http may run
    every request in its own goroutine, and the documentation of Handle allows it to be called meanwhile; so the model is a
    machine whose steps, of any number of requests and calls of Handle, interleave freely.  A ServeHTTP call starts by
    copying the mux (value receiver), that is the slice header; then each iteration of its loop is one step.  A Handle call
    is two steps: append (which writes memory), then the store of the new slice header.
    Not modelled: MustHandle, and the bytes net/http writes for a response. *)
From Verif Require Import Base SliceMem Funcs.
Open Scope nat_scope.

Definition str := list Z.
Definition str_eqb (a b : str) : bool := if list_eq_dec Z.eq_dec a b then true else false.

Section Rest.
  Context {regex handler : Type}.
  (** regexp.Compile and Regexp.FindStringSubmatch *)
  Variables (compile : str -> option regex) (find : regex -> str -> option (list str)).
  (** method, regexp, handler: rest/rest.go:47-48 *)
  Definition entry : Type := (str * regex * handler)%type.
  Context {ZE : Zero entry}.
  (** growth policy of append *)
  Variable ex : nat -> nat -> nat.

  Inductive handle_error : Set := ErrEmptyMethod | ErrEmptyPattern | ErrNilHandler | ErrRegex.
  (** rest/rest.go:54-73, the checks of Handle *)
  Definition handle_check (method pattern : str) (h : option handler) : entry + handle_error :=
    match method with
    | [] => inr ErrEmptyMethod
    | _ => match pattern with
           | [] => inr ErrEmptyPattern
           | _ => match h with
                  | None => inr ErrNilHandler
                  | Some h => match compile pattern with Some re => inl (method, re, h) | None => inr ErrRegex end
                  end
           end
    end.

  Record request := Request { rmethod : str; rpath : str }.
  (** The response of a request: what a handler was called with, or the status of http.Error *)
  Inductive response : Type :=
  | Served (h : handler) (parts : list str)
  | Status (code : Z).

  (** A ServeHTTP call in progress: its copy of the handlers, the next index of the loop, urlMatched *)
  Inductive rstate : Type :=
  | Running (rq : request) (handlers : slice) (i : nat) (matched : bool)
  | Finished (resp : response)
  | Crashed.

  (** rest/rest.go:88-93, entering ServeHTTP *)
  Definition serve_start (handlers : slice) (rq : request) : rstate := Running rq handlers 0 false.
  (** rest/rest.go:95-119: one iteration of the loop, or what follows the loop *)
  Definition serve_step (m : mem entry) (s : rstate) : rstate :=
    match s with
    | Running rq hs i matched =>
        if i <? slen hs then
          match sget m hs i with
          | Done (mMethod, mPattern, mHandler) =>
              match find mPattern (rpath rq) with
              | Some parts => if str_eqb (rmethod rq) mMethod then Finished (Served mHandler parts)
                              else Running rq hs (S i) true
              | None => Running rq hs (S i) matched
              end
          | _ => Crashed
          end
        else Finished (Status (if matched then 405 else 404))
    | _ => s
    end.

  (** The mux in memory, the calls of Handle between append and store, by goroutine, and the requests, by goroutine *)
  Record mux := Mux {
    xmem : mem entry;
    xhandlers : slice;
    xpend : nat -> option slice;
    xreq : nat -> option rstate
  }.
  Definition mux0 : mux := Mux [] None (fun _ => None) (fun _ => None).
  Definition put {A} (f : nat -> option A) (k : nat) (v : option A) : nat -> option A := fun j => if j =? k then v else f j.

  Inductive event : Type :=
  | Handle1 (t : nat) (method pattern : str) (h : option handler)   (* checks and append *)
  | Handle2 (t : nat)                                              (* store *)
  | Start (r : nat) (rq : request)
  | Step (r : nat).

  (** rest/rest.go:54-79 (Handle) and 88-120 (ServeHTTP) *)
  Definition step (x : mux) (e : event) : mux :=
    match e with
    | Handle1 t method pattern h =>
        match handle_check method pattern h with
        | inl en => let (m', s') := slice_add ex (xmem x) (xhandlers x) en in
                    Mux m' (xhandlers x) (put (xpend x) t (Some s')) (xreq x)
        | inr _ => x
        end
    | Handle2 t =>
        match xpend x t with
        | Some s' => Mux (xmem x) s' (put (xpend x) t None) (xreq x)
        | None => x
        end
    | Start r rq =>
        match xreq x r with
        | None => Mux (xmem x) (xhandlers x) (xpend x) (put (xreq x) r (Some (serve_start (xhandlers x) rq)))
        | Some _ => x
        end
    | Step r =>
        match xreq x r with
        | Some s => Mux (xmem x) (xhandlers x) (xpend x) (put (xreq x) r (Some (serve_step (xmem x) s)))
        | None => x
        end
    end.
  Definition run (x : mux) (es : list event) : mux := fold_left step es x.
End Rest.
Arguments entry : clear implicits.
Arguments rstate : clear implicits.
Arguments event : clear implicits.
Arguments mux : clear implicits.
Arguments response : clear implicits.
