(** Go maps as association lists with at most one entry per key.  The order of the list is one possible iteration
    order; statements that involve iteration quantify over every permutation of it. [None]-like nil maps are the empty
    list. Key equality is the boolean [eqb]. *)
From Coq Require Import Permutation.
From Verif Require Import Base.
Open Scope nat_scope.

Section Map.
  Context {K V : Type}.
  Variable eqb : K -> K -> bool.

  (** v, ok := m[k] *)
  Fixpoint mget (m : list (K * V)) (k : K) : option V :=
    match m with
    | [] => None
    | (k', v) :: r => if eqb k k' then Some v else mget r k
    end.

  (** m[k] = v *)
  Fixpoint mset (m : list (K * V)) (k : K) (v : V) : list (K * V) :=
    match m with
    | [] => [(k, v)]
    | (k', v') :: r => if eqb k k' then (k', v) :: r else (k', v') :: mset r k v
    end.

  (** delete(m, k) *)
  Fixpoint mdel (m : list (K * V)) (k : K) : list (K * V) :=
    match m with
    | [] => []
    | (k', v') :: r => if eqb k k' then r else (k', v') :: mdel r k
    end.

  (** representation invariant: no key twice *)
  Definition mok (m : list (K * V)) : Prop := NoDup (map fst m).
End Map.

(** [eqb] decides equality of keys (not so for floats, where NaN is not equal to itself: see [per] below, and C121; interface
    types are not comparable type arguments in Go 1.18). *)
Definition eq_decides {K} (eqb : K -> K -> bool) : Prop := forall a b, eqb a b = true <-> a = b.

Section MapLemmas.
  Context {K V : Type} (eqb : K -> K -> bool) (E : eq_decides eqb).
  Notation get := (mget (V := V) eqb).
  Notation set := (mset (V := V) eqb).
  Notation del := (mdel (V := V) eqb).

  Lemma eqb_refl k : eqb k k = true.
  Proof. apply E; reflexivity. Qed.
  Lemma eqb_neq a b : a <> b -> eqb a b = false.
  Proof. intros N. destruct (eqb a b) eqn:H; auto. apply E in H. contradiction. Qed.
  Lemma eqb_spec a b : reflect (a = b) (eqb a b).
  Proof. destruct (eqb a b) eqn:H; constructor; [apply E; auto|]. intros ->. rewrite eqb_refl in H. discriminate. Qed.

  Lemma mget_set m k v k' : get (set m k v) k' = if eqb k' k then Some v else get m k'.
  Proof.
    induction m as [|[a b] m IH]; simpl; [reflexivity|].
    destruct (eqb_spec k a) as [->|N]; simpl.
    - destruct (eqb k' a); reflexivity.
    - rewrite IH. destruct (eqb_spec k' a) as [->|N2]; auto. rewrite eqb_neq; auto.
  Qed.

  Lemma mget_none m k : get m k = None <-> ~ In k (map fst m).
  Proof.
    induction m as [|[a b] m IH]; simpl; [tauto|].
    destruct (eqb_spec k a) as [->|N]; [split; [discriminate|tauto]|]. rewrite IH. split; [intros H [<-|H2]; auto|tauto].
  Qed.

  Lemma mget_del m k k' : mok m -> get (del m k) k' = if eqb k' k then None else get m k'.
  Proof.
    unfold mok. induction m as [|[a b] m IH]; simpl; intros ND.
    - destruct (eqb k' k); reflexivity.
    - inversion ND as [|? ? N ND']; subst. destruct (eqb_spec k a) as [->|NE]; simpl.
      + destruct (eqb_spec k' a) as [Ek|]; auto. subst k'. apply mget_none; auto.
      + rewrite IH by auto. destruct (eqb_spec k' a) as [Ek|]; auto. subst k'. rewrite eqb_neq; auto.
  Qed.

  Lemma mset_keys m k v : map fst (set m k v) = if existsb (eqb k) (map fst m) then map fst m else map fst m ++ [k].
  Proof.
    induction m as [|[a b] m IH]; simpl; [reflexivity|]. destruct (eqb_spec k a) as [->|]; simpl; [reflexivity|].
    rewrite IH. destruct (existsb (eqb k) (map fst m)); reflexivity.
  Qed.

  Lemma existsb_In k l : existsb (eqb k) l = true <-> In k l.
  Proof.
    rewrite existsb_exists. split.
    - intros (x & I & H). apply E in H. subst; auto.
    - intros I. exists k. split; auto. apply eqb_refl.
  Qed.

  Lemma mset_ok m k v : mok m -> mok (set m k v).
  Proof.
    unfold mok. intros ND. rewrite mset_keys. destruct (existsb (eqb k) (map fst m)) eqn:X; auto.
    apply NoDup_rev in ND. rewrite <- (rev_involutive (map fst m ++ [k])). apply NoDup_rev. rewrite rev_app_distr. simpl.
    constructor; auto. rewrite <- in_rev. intros I. apply existsb_In in I. congruence.
  Qed.

  Lemma mdel_in m k x : In x (del m k) -> In x m.
  Proof.
    induction m as [|[a b] m IH]; simpl; auto. destruct (eqb k a); simpl; auto. intros [|]; auto.
  Qed.

  Lemma mdel_ok m k : mok m -> mok (del m k).
  Proof.
    unfold mok. induction m as [|[a b] m IH]; simpl; intros ND; auto. inversion ND as [|? ? N ND']; subst.
    destruct (eqb k a); auto. simpl. constructor; auto. intros I. apply N.
    apply in_map_iff in I as ((a' & b') & Ea & I). simpl in Ea. subst a'. apply mdel_in in I.
    apply in_map_iff. exists (a, b'). auto.
  Qed.

  Lemma mget_in m k v : mok m -> (In (k, v) m <-> get m k = Some v).
  Proof.
    unfold mok. induction m as [|[a b] m IH]; simpl; intros ND; [split; [tauto|discriminate]|].
    inversion ND as [|? ? N ND']; subst. destruct (eqb_spec k a) as [->|NE].
    - split.
      + intros [H|H]; [inversion H; reflexivity|]. exfalso. apply N. apply in_map_iff. exists (a, v). auto.
      + intros H; inversion H; auto.
    - rewrite <- IH by auto. split; [intros [H|H]; [inversion H; congruence|auto]|auto].
  Qed.

  (** two maps with the same lookups have the same entries up to order *)
  Lemma mok_nodup (m : list (K * V)) : mok m -> NoDup m.
  Proof. unfold mok. apply NoDup_map_inv. Qed.

  Lemma mget_perm (m1 m2 : list (K * V)) : mok m1 -> mok m2 -> (forall k, get m1 k = get m2 k) -> Permutation m1 m2.
  Proof.
    intros O1 O2 H. apply NoDup_Permutation; [apply mok_nodup; auto..|]. intros [k v].
    rewrite !mget_in by auto. rewrite H. tauto.
  Qed.

  Lemma perm_mget (m1 m2 : list (K * V)) k : mok m1 -> Permutation m1 m2 -> get m1 k = get m2 k.
  Proof.
    intros O P. assert (O2 : mok m2). { unfold mok in *. eapply Permutation_NoDup; [apply Permutation_map; eauto|auto]. }
    destruct (get m1 k) as [v|] eqn:G.
    - symmetry. apply mget_in; auto. eapply Permutation_in; eauto. apply mget_in; auto.
    - symmetry. apply mget_none. intros I. apply mget_none in G. apply G.
      eapply Permutation_in; [apply Permutation_map; symmetry; exact P|auto].
  Qed.
End MapLemmas.

(** [eqb] is symmetric and transitive, but need not be reflexive (Go's == on floats: NaN is not equal to itself) *)
Definition per {K} (eqb : K -> K -> bool) : Prop :=
  (forall a b, eqb a b = true -> eqb b a = true) /\ (forall a b c, eqb a b = true -> eqb b c = true -> eqb a c = true).
Lemma per_false {K} (eqb : K -> K -> bool) a b c : per eqb -> eqb a b = true -> eqb a c = eqb b c.
Proof.
  intros (Sy & Tr) H. destruct (eqb b c) eqn:B.
  - apply (Tr a b c); auto.
  - destruct (eqb a c) eqn:A; auto. rewrite <- B. symmetry. apply (Tr b a c); auto.
Qed.
Lemma mget_set_per {K V} (eqb : K -> K -> bool) (E : per eqb) (m : list (K * V)) k v k' :
  mget eqb (mset eqb m k v) k' = if eqb k' k then Some v else mget eqb m k'.
Proof.
  induction m as [|[a b] m IH]; simpl; [reflexivity|]. destruct (eqb k a) eqn:A; simpl.
  - destruct (eqb k' a) eqn:B.
    + replace (eqb k' k) with true; auto. symmetry. destruct E as (Sy & Tr). apply (Tr k' a k); auto.
    + destruct (eqb k' k) eqn:C; auto. destruct E as (Sy & Tr). rewrite (Tr k' k a C A) in B. discriminate.
  - rewrite IH. destruct (eqb k' a) eqn:B; auto. destruct (eqb k' k) eqn:C; auto. exfalso. destruct E as (Sy & Tr).
    rewrite (Tr k k' a) in A; auto; discriminate.
Qed.
