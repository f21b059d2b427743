(** C61: the REST mux. *)
From Verif Require Import Base SliceMem SliceMemProofs Funcs Rest RestSpec RestProofs.
Open Scope nat_scope.

Section C61.
  Context {regex handler : Type}.
  Variables (compile : str -> option regex) (find : regex -> str -> option (list str)).
  Context {ZE : Zero (entry regex handler)}.
  Variable ex : nat -> nat -> nat.

  (** Handle registers exactly when the method and pattern are not empty, the handler is not nil and the pattern
      compiles; otherwise it reports the first of these that fails. *)
  Theorem C61_handle method pattern (h : option handler) :
    match handle_check compile method pattern h with
    | inl (m, re, h') => m = method /\ method <> [] /\ pattern <> [] /\ h = Some h' /\ compile pattern = Some re
    | inr ErrEmptyMethod => method = []
    | inr ErrEmptyPattern => method <> [] /\ pattern = []
    | inr ErrNilHandler => method <> [] /\ pattern <> [] /\ h = None
    | inr ErrRegex => method <> [] /\ pattern <> [] /\ h <> None /\ compile pattern = None
    end.
  Proof.
    unfold handle_check. destruct method as [|a me]; [reflexivity|]. destruct pattern as [|b pa]; [split; [discriminate|reflexivity]|].
    destruct h as [h|]; [|split; [discriminate|split; [discriminate|reflexivity]]].
    destruct (compile (b :: pa)) eqn:C; repeat split; auto; discriminate.
  Qed.

  (** In every interleaving of requests and (non-overlapping) calls of Handle, with any growth policy of append: a request
      that starts after the registrations L have been completed never crashes, after more than length L of its own steps
      it has been answered, and its one answer is the right one for L, whatever is registered meanwhile. *)
  Theorem C61_dispatch pre r rq post L : no_start r pre -> registered compile None [] (pre ++ Start r rq :: post) <> None ->
    registered compile None [] pre = Some L ->
    exists s, xreq (run compile find ex mux0 (pre ++ Start r rq :: post)) r = Some s /\
      match s with
      | Running rq' _ _ _ => rq' = rq /\ steps r post <= length L
      | Finished resp => answers find L rq resp
      | Crashed => False
      end.
  Proof.
    intros NS R RL. destruct (run_inv compile find ex pre mux0 None [] _ (inv0 ) R) as (p & d & I & R1 & R2).
    assert (d = L) by congruence. subst d. unfold run in *. rewrite fold_left_app. cbn [fold_left].
    pose proof (no_start_none compile find ex r pre NS mux0 eq_refl) as X. unfold run in X.
    set (x1 := fold_left (step compile find ex) pre mux0) in *.
    rewrite registered_cons in R2. cbn [spec_step] in R2.
    destruct (step_inv compile find ex x1 p L (Start r rq) p L I eq_refl) as (I' & _).
    destruct (run_good compile find ex L rq r post (step compile find ex x1 (Start r rq)) p L 0 (serve_start (xhandlers x1) rq) I' R2) as (s & X' & G).
    { cbn [step]. rewrite X. cbn [xreq]. apply put_eq. }
    { cbn [step good serve_start]. rewrite X. destruct I as (V & C & _ & SH & _). split; [auto|]. split; [exact SH|]. split; [exact C|].
      split; [auto|]. split; [lia|]. split; [intros e []|]. split; [discriminate|intros (e & [] & _)]. }
    exists s. split; [exact X'|]. destruct s as [rq' hs i b|resp|]; cbn [good] in G; auto.
    destruct G as (-> & _ & _ & -> & LE & _). split; auto.
  Qed.

  (** The right answer is unique. *)
  Theorem C61_unique es rq a b : answers find (handler := handler) es rq a -> answers find es rq b -> a = b.
  Proof.
    assert (SP : forall (pre pre' : list (entry regex handler)) e e' post post', pre ++ e :: post = pre' ++ e' :: post' ->
      (e = e' /\ pre = pre') \/ In e pre' \/ In e' pre).
    { induction pre as [|x pre IH]; intros [|y pre'] e e' post post'; simpl; intros E; injection E as E1 E2; subst; auto.
      destruct (IH _ _ _ _ _ E2) as [(-> & ->)|[I|I]]; auto. }
    intros A B.
    assert (NO : forall m re h parts pre post, es = pre ++ (m, re, h) :: post -> m = rmethod rq -> find re (rpath rq) = Some parts ->
       (forall e, In e es -> fst (fst e) = rmethod rq -> ~ matches find rq e) -> False).
    { intros m re h parts pre post E M F N. apply (N (m, re, h)); [rewrite E; apply in_app_iff; right; left; auto|auto|]. unfold matches. simpl. congruence. }
    destruct A as [pre m re h parts post E M F N|N (e0 & I0 & M0)|N]; destruct B as [pre' m' re' h' parts' post' E' M' F' N'|N' (e1 & I1 & M1)|N']; auto.
    - rewrite E in E'. destruct (SP _ _ _ _ _ _ E') as [(Q & _)|[I|I]].
      + injection Q as -> -> ->. congruence.
      + exfalso. apply (N' _ I); [auto|]. unfold matches. simpl. congruence.
      + exfalso. apply (N _ I); [auto|]. unfold matches. simpl. congruence.
    - exfalso. eauto.
    - exfalso. eapply NO; eauto.
    - exfalso. eauto.
    - exfalso. apply (N' _ I0 M0).
    - exfalso. eapply NO; eauto.
    - exfalso. apply (N _ I1 M1).
  Qed.
End C61.

(** A small instance: patterns are paths, matched literally; handlers are numbers. *)
Definition C61_find (re path : str) : option (list str) := if str_eqb re path then Some [path] else None.
Definition C61_run := @run str nat Some C61_find ([], [], 0) (fun _ _ => 3) mux0.
Example C61_ex : let es := [Handle1 0 [1%Z] [7%Z] (Some 11); Handle2 0; Start 5 (Request [2%Z] [7%Z]); Handle1 1 [2%Z] [7%Z] (Some 12); Step 5; Handle2 1;
    Start 6 (Request [2%Z] [7%Z]); Step 6; Step 5; Step 6] in
  xreq (C61_run es) 5 = Some (Finished (Status 405)) /\ xreq (C61_run es) 6 = Some (Finished (Served 12 [[7%Z]])) /\
  registered Some None [] es = Some [([1%Z], [7%Z], 11); ([2%Z], [7%Z], 12)].
Proof. repeat split; vm_compute; reflexivity. Qed.

(** Finding: Handle "can be called any time", but two overlapping calls both succeed and one registration is lost. *)
Theorem C61_finding_lost_registration : let es := [Handle1 0 [1%Z] [7%Z] (Some 11); Handle1 1 [1%Z] [8%Z] (Some 12); Handle2 0; Handle2 1;
    Start 5 (Request [1%Z] [7%Z]); Step 5; Step 5] in
  xreq (C61_run es) 5 = Some (Finished (Status 404)).
Proof. vm_compute. reflexivity. Qed.
(** Finding: a request that reads the words of the slice header while Handle stores them may combine the old array with
    the new length, and then reads outside the array. *)
Theorem C61_finding_torn_header : exists old new,
  let step := @step str nat Some C61_find ([], [], 0) (fun _ _ => 0) in
  let x1 := fold_left step [Handle1 0 [1%Z] [7%Z] (Some 11); Handle2 0] mux0 in
  let x2 := fold_left step [Handle1 0 [1%Z] [8%Z] (Some 12); Handle2 0] x1 in
  xhandlers x1 = Some old /\ xhandlers x2 = Some new /\
  let torn := Some (Hdr (arr old) (off old) (len new) (cap new)) in
  ~ valid (xmem x2) torn /\ serve_step C61_find (xmem x2) (Running (Request [1%Z] [8%Z]) torn 1 false) = Crashed.
Proof.
  exists (Hdr 1 0 1 1), (Hdr 2 0 2 2). cbv zeta. split; [vm_compute; reflexivity|]. split; [vm_compute; reflexivity|].
  split; [|vm_compute; reflexivity]. vm_compute. intros (_ & _ & Q). lia.
Qed.
