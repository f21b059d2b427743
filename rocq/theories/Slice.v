(** Slices as lists: indexed read and write with Go's bounds check. *)
From Verif Require Import Base.
From Coq Require Import ZifyNat.
Ltac Zify.zify_post_hook ::= Z.div_mod_to_equations.
Open Scope nat_scope.

(** slc[i] = v; None when out of range (a run-time panic). *)
Fixpoint set_nth {T} (l : list T) (i : nat) (v : T) : option (list T) :=
  match l, i with
  | [], _ => None
  | _ :: r, 0 => Some (v :: r)
  | x :: r, S j => match set_nth r j v with Some r' => Some (x :: r') | None => None end
  end.

(** funcs/funcs.go:239-249, SliceReverse: the loop body for indexes i .. i+n-1. *)
Fixpoint reverse_loop {T} (n i : nat) (slc : list T) : outcome (list T) :=
  match n with
  | 0 => Done slc
  | S n' =>
      let j := length slc - 1 - i in
      match nth_error slc i, nth_error slc j with
      | Some a, Some b =>
          match set_nth slc i b with
          | Some s1 => match set_nth s1 j a with Some s2 => reverse_loop n' (i + 1) s2 | None => Panicked end
          | None => Panicked
          end
      | _, _ => Panicked
      end
  end.
Definition slice_reverse {T} (slc : list T) : outcome (list T) := reverse_loop (Nat.div (length slc) 2) 0 slc.

Lemma set_nth_app {T} (pre : list T) x post v : set_nth (pre ++ x :: post) (length pre) v = Some (pre ++ v :: post).
Proof. induction pre as [|a pre IH]; simpl; auto. rewrite IH. reflexivity. Qed.

Lemma set_nth_length {T} (l : list T) i v l' : set_nth l i v = Some l' -> length l' = length l.
Proof.
  revert i l'. induction l as [|x l IH]; intros [|i] l'; simpl; try discriminate.
  - intros E; inversion E; reflexivity.
  - destruct (set_nth l i v) eqn:S; [|discriminate]. intros E; inversion E; simpl. f_equal. eauto.
Qed.

Lemma set_nth_some {T} (l : list T) i v : i < length l -> exists l', set_nth l i v = Some l'.
Proof.
  revert i. induction l as [|x l IH]; intros [|i] Hi; simpl in *; try lia; eauto.
  destruct (IH i ltac:(lia)) as [l' ->]; eauto.
Qed.

Lemma set_nth_none {T} (l : list T) i v : length l <= i -> set_nth l i v = None.
Proof.
  revert i. induction l as [|x l IH]; intros [|i] Hi; simpl in *; try lia; auto. rewrite IH by lia. reflexivity.
Qed.

Lemma set_nth_get {T} (l : list T) i v l' k : set_nth l i v = Some l' ->
  nth_error l' k = if k =? i then Some v else nth_error l k.
Proof.
  revert i l' k. induction l as [|x l IH]; intros [|i] l' k; simpl; try discriminate.
  - intros E; inversion E; subst. destruct k; reflexivity.
  - destruct (set_nth l i v) eqn:S; [|discriminate]. intros E; inversion E; subst.
    destruct k; simpl; [reflexivity|]. apply IH; exact S.
Qed.

(** The loop reverses: after swapping the outer [i] pairs the middle remains. *)
Lemma reverse_loop_spec {T} n : forall (mid pre post : list T),
  length pre = length post -> n = Nat.div (length mid) 2 ->
  reverse_loop n (length pre) (pre ++ mid ++ post) = Done (pre ++ rev mid ++ post).
Proof.
  induction n as [|n IH]; intros mid pre post Hl Hn.
  - assert (length mid <= 1).
    { revert Hn. clear. generalize (length mid). intros k Hk. lia. }
    destruct mid as [|a [|b m]]; simpl in *; try lia; reflexivity.
  - destruct mid as [|a mid]; [simpl in Hn; discriminate|].
    destruct mid as [|z mid _] using rev_ind; [simpl in Hn; discriminate|].
    assert (Hn' : n = Nat.div (length mid) 2).
    { cbn [length] in Hn. rewrite app_length in Hn. cbn [length] in Hn. lia. }
    cbn [reverse_loop].
    set (slc := pre ++ (a :: mid ++ [z]) ++ post).
    assert (Es : slc = pre ++ a :: (mid ++ z :: post)).
    { subst slc. simpl. rewrite <- app_assoc. reflexivity. }
    assert (Es2 : slc = (pre ++ a :: mid) ++ z :: post).
    { rewrite Es. rewrite <- app_assoc. reflexivity. }
    assert (Lj : length slc - 1 - length pre = length (pre ++ a :: mid)).
    { rewrite Es2, !app_length. simpl. lia. }
    rewrite Lj.
    replace (nth_error slc (length pre)) with (Some a).
    2: { rewrite Es, nth_error_app2, Nat.sub_diag by lia. reflexivity. }
    replace (nth_error slc (length (pre ++ a :: mid))) with (Some z).
    2: { rewrite Es2, nth_error_app2, Nat.sub_diag by lia. reflexivity. }
    rewrite Es at 1. rewrite set_nth_app.
    replace (pre ++ z :: mid ++ z :: post) with ((pre ++ z :: mid) ++ z :: post) by (rewrite <- app_assoc; reflexivity).
    replace (length (pre ++ a :: mid)) with (length (pre ++ z :: mid)) by (rewrite !app_length; reflexivity).
    rewrite set_nth_app.
    replace (length pre + 1) with (length (pre ++ [z])) by (rewrite app_length; reflexivity).
    replace ((pre ++ z :: mid) ++ a :: post) with ((pre ++ [z]) ++ mid ++ (a :: post))
      by (rewrite <- !app_assoc; reflexivity).
    rewrite IH; [|rewrite app_length; simpl; lia|exact Hn'].
    f_equal. simpl. rewrite rev_app_distr. simpl. rewrite <- !app_assoc. reflexivity.
Qed.

Lemma slice_reverse_spec {T} (slc : list T) : slice_reverse slc = Done (rev slc).
Proof.
  unfold slice_reverse. pose proof (reverse_loop_spec (Nat.div (length slc) 2) slc [] [] eq_refl eq_refl) as E.
  simpl in E. rewrite !app_nil_r in E. exact E.
Qed.
