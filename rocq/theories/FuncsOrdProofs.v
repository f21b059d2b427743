From Coq Require Import Permutation Sorting ZifyNat.
From Verif Require Import Base Slice SliceMem SliceMemProofs FuncsFn FuncsFnProofs FuncsSpec FuncsProofs FuncsOrd FuncsOrdSpec.
Ltac Zify.zify_post_hook ::= Z.div_mod_to_equations.
Open Scope nat_scope.

Lemma ord_int_laws : ord_laws ord_int.
Proof.
  constructor; cbn [ord_int olt oeq ogt].
  - intros a b. apply Z.eqb_eq.
  - intros a b. apply Z.gtb_ltb.
  - intros a. apply Z.ltb_irrefl.
  - intros a b c. rewrite !Z.ltb_lt. lia.
  - intros a b. rewrite !Z.ltb_lt. lia.
Qed.
Lemma ord_string_laws : ord_laws ord_string.
Proof.
  constructor; cbn [ord_string olt oeq ogt].
  - intros a b. rewrite <- str_cmp_eq. destruct (str_cmp a b); split; congruence.
  - intros a b. rewrite (str_cmp_anti a b). destruct (str_cmp a b); reflexivity.
  - intros a. assert (Q : str_cmp a a = Eq) by (apply str_cmp_eq; reflexivity). rewrite Q. reflexivity.
  - intros a b c. destruct (str_cmp a b) eqn:A; try discriminate. destruct (str_cmp b c) eqn:B; try discriminate.
    intros _ _. rewrite (str_cmp_trans _ _ _ A B). reflexivity.
  - intros a b. rewrite (str_cmp_anti a b). destruct (str_cmp a b) eqn:A; auto. right. left. apply str_cmp_eq; auto.
Qed.

(** ceil((l+r)/2) *)
Lemma mid_bounds l r : l < r ->
  let m := Nat.div (l + r) 2 in let m := if Nat.modulo (l + r) 2 =? 1 then m + 1 else m in l < m <= r.
Proof. intros H. cbv zeta. destruct (Nat.eqb_spec (Nat.modulo (l + r) 2) 1); lia. Qed.

Section Search.
  Context {K V : Type} (o : gord K).
  Implicit Types (mp : list (K * V)).

  (** whatever the list, the search terminates without a panic, at a valid index, and reports whether the key is there *)
  Lemma search_loop_total : forall fuel mp key l r, l <= r -> r < length mp -> r - l <= fuel ->
    exists i e, search_loop o fuel mp key l r = Done (Z.of_nat i, oeq o key (fst e)) /\ l <= i <= r /\ nth_error mp i = Some e.
  Proof.
    induction fuel as [|fuel IH]; intros mp key l r Hlr Hr Hf; cbn [search_loop].
    - destruct (Nat.eqb_spec l r) as [->|]; [|lia].
      destruct (nth_error mp r) as [e|] eqn:N; [exists r, e; auto|]. apply nth_error_None in N. lia.
    - destruct (Nat.eqb_spec l r) as [->|NE].
      + destruct (nth_error mp r) as [e|] eqn:N; [exists r, e; auto|]. apply nth_error_None in N. lia.
      + pose proof (mid_bounds l r ltac:(lia)) as B. cbv zeta in *.
        set (m := if Nat.modulo (l + r) 2 =? 1 then Nat.div (l + r) 2 + 1 else Nat.div (l + r) 2) in *.
        destruct (nth_error mp m) as [e|] eqn:N; [|apply nth_error_None in N; lia].
        destruct (ogt o (fst e) key).
        * destruct (IH mp key l (m - 1)) as (i & e' & A & B' & C); [lia..|]. exists i, e'. repeat split; auto; lia.
        * destruct (IH mp key m r) as (i & e' & A & B' & C); [lia..|]. exists i, e'. repeat split; auto; lia.
  Qed.

  Lemma ord_search_total mp key : mp = [] /\ ord_search o mp key = Done ((-1)%Z, false) \/
    exists i e, ord_search o mp key = Done (Z.of_nat i, oeq o key (fst e)) /\ nth_error mp i = Some e /\ i < length mp.
  Proof.
    unfold ord_search. destruct mp as [|x mp]; [left; auto|]. right. change (length (x :: mp) =? 0) with false. cbv iota.
    destruct (search_loop_total (length (x :: mp)) (x :: mp) key 0 (length (x :: mp) - 1)) as (i & e & A & B & C).
    - cbn [length]. lia.
    - cbn [length]. lia.
    - cbn [length]. lia.
    - exists i, e. split; auto. split; auto. apply nth_error_Some. congruence.
  Qed.

  (** on sorted lists: everything right of the result is larger, and the result is not, unless it is index 0 *)
  Context (OL : ord_laws o).

  Lemma ksorted_nth mp i j a b : ksorted o mp -> i < j -> nth_error mp i = Some a -> nth_error mp j = Some b ->
    key_lt o (fst a) (fst b).
  Proof.
    unfold ksorted. revert i j. induction mp as [|x mp IH]; intros i j S L A B; [destruct i; discriminate|].
    cbn [map] in S. inversion S as [|? ? S' F]; subst. destruct j as [|j]; [lia|]. cbn [nth_error] in B. destruct i as [|i].
    - cbn [nth_error] in A. injection A as <-. rewrite Forall_forall in F. apply F. apply in_map. eapply nth_error_In; eauto.
    - cbn [nth_error] in A. eapply (IH i j); eauto; lia.
  Qed.

  Lemma search_loop_sorted : forall fuel mp key l r, ksorted o mp -> l <= r -> r < length mp -> r - l <= fuel ->
    (l = 0 \/ exists e, nth_error mp l = Some e /\ olt o key (fst e) = false) ->
    (forall j e, r < j -> nth_error mp j = Some e -> olt o key (fst e) = true) ->
    exists i e, search_loop o fuel mp key l r = Done (Z.of_nat i, oeq o key (fst e)) /\ nth_error mp i = Some e /\
      (i = 0 \/ olt o key (fst e) = false) /\
      (forall j e', i < j -> nth_error mp j = Some e' -> olt o key (fst e') = true).
  Proof.
    induction fuel as [|fuel IH]; intros mp key l r S Hlr Hr Hf Hl Hright; cbn [search_loop].
    - destruct (Nat.eqb_spec l r) as [->|]; [|lia].
      destruct (nth_error mp r) as [e|] eqn:N; [|apply nth_error_None in N; lia]. exists r, e. repeat split; auto.
      destruct Hl as [|(e' & A & B)]; auto. right. congruence.
    - destruct (Nat.eqb_spec l r) as [->|NE].
      + destruct (nth_error mp r) as [e|] eqn:N; [|apply nth_error_None in N; lia]. exists r, e. repeat split; auto.
        destruct Hl as [|(e' & A & B)]; auto. right. congruence.
      + pose proof (mid_bounds l r ltac:(lia)) as B. cbv zeta in *.
        set (m := if Nat.modulo (l + r) 2 =? 1 then Nat.div (l + r) 2 + 1 else Nat.div (l + r) 2) in *.
        destruct (nth_error mp m) as [e|] eqn:N; [|apply nth_error_None in N; lia].
        rewrite (ol_gt o OL). destruct (olt o key (fst e)) eqn:C.
        * apply IH; auto; try lia. intros j e' Hj Nj. destruct (Nat.eq_dec j m) as [->|].
          -- congruence.
          -- apply (ol_trans o OL key (fst e)); auto. eapply (ksorted_nth mp m j); eauto. lia.
        * apply IH; auto; try lia. right. eauto.
  Qed.

  Lemma ord_search_sorted mp key : ksorted o mp -> mp <> [] ->
    exists i e, ord_search o mp key = Done (Z.of_nat i, oeq o key (fst e)) /\ nth_error mp i = Some e /\
      (i = 0 \/ olt o key (fst e) = false) /\
      (forall j e', i < j -> nth_error mp j = Some e' -> olt o key (fst e') = true).
  Proof.
    intros S N. unfold ord_search. destruct mp as [|x mp]; [congruence|]. change (length (x :: mp) =? 0) with false. cbv iota.
    apply search_loop_sorted; auto; cbn [length]; try lia.
    intros j e Hj Nj. assert (j < length (x :: mp)) by (apply nth_error_Some; congruence). cbn [length] in *. lia.
  Qed.
End Search.

(** ** lookups in multimaps as association lists *)
Section Multi.
  Context {K V : Type} (o : gord K) (OL : ord_laws o) (ex : nat -> nat -> nat) {ZT : Zero (K * list V)}.
  Notation tup := (K * list V)%type.
  Implicit Types (m : mem tup) (s : slice) (l : list tup).

  Lemma oeqb_refl a : oeq o a a = true. Proof. apply OL; auto. Qed.
  Lemma oeqb_neq a b : a <> b -> oeq o a b = false.
  Proof. intros N. destruct (oeq o a b) eqn:E; auto. apply OL in E. congruence. Qed.
  Lemma olt_neq a b : olt o a b = true -> a <> b.
  Proof. intros L ->. rewrite (ol_irr o OL) in L. discriminate. Qed.
  Lemma olt_asym a b : olt o a b = true -> olt o b a = false.
  Proof. intros L. destruct (olt o b a) eqn:E; auto. pose proof (ol_trans o OL _ _ _ L E) as X. rewrite (ol_irr o OL) in X. discriminate. Qed.

  (** the lookup function of a list of tuples *)
  Fixpoint lookup (l : list tup) (k : K) : option (list V) :=
    match l with [] => None | e :: r => if oeq o k (fst e) then Some (snd e) else lookup r k end.

  Lemma lookup_in l k x : lookup l k = Some x -> In (k, x) l.
  Proof.
    induction l as [|[a b] l IH]; simpl; [discriminate|]. destruct (oeq o k a) eqn:E; auto. apply OL in E. subst.
    intros H; inversion H; auto.
  Qed.
  Lemma lookup_none l k : lookup l k = None <-> ~ In k (map fst l).
  Proof.
    induction l as [|[a b] l IH]; simpl; [tauto|]. destruct (oeq o k a) eqn:E.
    - apply OL in E. subst. split; [discriminate|]. intros H; exfalso; auto.
    - rewrite IH. split; [|tauto]. intros H [Q|Q]; auto. subst. rewrite oeqb_refl in E. discriminate.
  Qed.
  Lemma lookup_app a b k : lookup (a ++ b) k = match lookup a k with Some x => Some x | None => lookup b k end.
  Proof. induction a as [|e a IH]; simpl; auto. destruct (oeq o k (fst e)); auto. Qed.

  Lemma sorted_app_l {A} (R : A -> A -> Prop) x y : StronglySorted R (x ++ y) ->
    StronglySorted R x /\ StronglySorted R y /\ (forall a b, In a x -> In b y -> R a b).
  Proof.
    induction x as [|a x IH]; simpl; intros S; [repeat split; auto; [constructor|tauto]|].
    inversion S as [|? ? S' F]; subst. destruct (IH S') as (A1 & A2 & A3). rewrite Forall_forall in F. split; [|split; auto].
    - constructor; auto. rewrite Forall_forall. intros b I. apply F. apply in_or_app; auto.
    - intros b c [<-|I] J; [apply F; apply in_or_app; auto|auto].
  Qed.
  Lemma sorted_app_r {A} (R : A -> A -> Prop) x y : StronglySorted R x -> StronglySorted R y ->
    (forall a b, In a x -> In b y -> R a b) -> StronglySorted R (x ++ y).
  Proof.
    induction x as [|a x IH]; simpl; intros Sx Sy H; auto. inversion Sx as [|? ? S' F]; subst. constructor.
    - apply IH; auto.
    - rewrite Forall_forall in *. intros b I. apply in_app_or in I as [I|I]; auto.
  Qed.

  (** the list-level effect of each operation *)
  Definition insert_at (i : nat) (x : tup) l : list tup := firstn i l ++ x :: skipn i l.

  Lemma set_nth_split {A} (l : list A) i e v (l' : list A) : nth_error l i = Some e -> set_nth l i v = Some l' ->
    l = firstn i l ++ e :: skipn (S i) l /\ l' = firstn i l ++ v :: skipn (S i) l.
  Proof.
    revert i l'. induction l as [|x l IH]; intros [|i] l' N S; simpl in *; try discriminate.
    - injection N as ->. injection S as <-. auto.
    - destruct (set_nth l i v) eqn:E; [|discriminate]. injection S as <-. destruct (IH i l0 N E) as (A1 & B1). split; [f_equal; exact A1|f_equal; exact B1].
  Qed.

  Lemma ord_add_contents m s k v : valid m s ->
    exists m' s', ord_add o ex m s k v = Done (m', s') /\ valid m' s' /\
      let l := contents m s in
      (l = [] /\ contents m' s' = [(k, [v])] \/
       exists i e, ord_search o l k = Done (Z.of_nat i, oeq o k (fst e)) /\ nth_error l i = Some e /\
         (oeq o k (fst e) = true /\ contents m' s' = firstn i l ++ (k, snd e ++ [v]) :: skipn (S i) l \/
          oeq o k (fst e) = false /\ contents m' s' = firstn (S i) l ++ (k, [v]) :: skipn (S i) l)).
  Proof.
    intros Vs. unfold ord_add. pose proof (contents_length m s Vs) as CL.
    destruct (ord_search_total o (contents m s) k) as [(E & ->)|(i & e & Es & N & L)]; cbn [obind].
    - change ((-1 =? -1)%Z) with true. cbv iota. do 2 eexists. split; [reflexivity|]. split.
      + cbn [valid arr off len cap]. rewrite array_last, app_length. simpl. lia.
      + left. split; auto. unfold contents. cbn [arr off len]. rewrite array_last. reflexivity.
    - rewrite Es. cbn [obind]. replace (Z.of_nat i =? -1)%Z with false by lia. rewrite Nat2Z.id.
      destruct (oeq o k (fst e)) eqn:Q.
      + unfold sget. rewrite N. cbn [obind].
        pose proof (sset_spec m s i (k, snd e ++ [v]) Vs) as P. destruct (sset m s i (k, snd e ++ [v])) as [m'| |]; cbn [obind]; [|lia|tauto].
        destruct P as (_ & _ & _ & P & V'). exists m', s. split; auto. split; auto. right. exists i, e. rewrite Q. split; auto. split; auto. left. split; auto.
        apply (set_nth_split _ _ _ _ _ N P).
      + pose proof (smake_spec m 0 0) as P. destruct (smake m 0 0) as [m1 s1]. destruct P as (P1 & P2 & P3 & _ & _ & _ & (h & Eh & Ah) & _).
        assert (FS : fresh m s1) by (subst s1; simpl; lia).
        assert (V1 : valid m1 s) by (eapply frame_valid; eauto).
        assert (C1 : contents m1 s = contents m s) by (eapply frame_contents; eauto).
        destruct (reslice_spec m1 s 0 (i + 1) V1) as (b & Eb & Cb & _); [lia|]. rewrite Eb. cbn [obind].
        destruct (sappend ex m1 s1 (contents m1 b)) as [m2 s2] eqn:E2.
        destruct (sappend_fresh ex m m1 s1 _ m2 s2 P3 FS P1 E2) as (Q1 & Q2 & Q3 & Q4).
        destruct (sappend ex m2 s2 [(k, [v])]) as [m3 s3] eqn:E3.
        destruct (sappend_fresh ex m m2 s2 _ m3 s3 Q1 Q2 Q3 E3) as (R1 & R2 & R3 & R4).
        assert (V3 : valid m3 s) by (eapply frame_valid; eauto).
        assert (C3 : contents m3 s = contents m s) by (eapply frame_contents; eauto).
        destruct (reslice_spec m3 s (i + 1) (slen s) V3) as (a & Ea & Ca & _); [lia|]. rewrite Ea. cbn [obind].
        destruct (sappend ex m3 s3 (contents m3 a)) as [m4 s4] eqn:E4.
        destruct (sappend_fresh ex m m3 s3 _ m4 s4 R1 R2 R3 E4) as (T1 & T2 & T3 & T4).
        exists m4, s4. split; auto. split; auto. right. exists i, e. rewrite Q. split; auto. split; auto. right. split; auto.
        rewrite T4, R4, Q4, P2, Cb, Ca, C1, C3. rewrite skipn_O. cbn [repeat app]. rewrite Nat.sub_0_r.
        replace (i + 1) with (S i) by lia. rewrite <- app_assoc. cbn [app]. f_equal. f_equal.
        apply firstn_all2. rewrite skipn_length. lia.
  Qed.

  Lemma ord_remove_key_contents m s k : valid m s ->
    exists m' s', ord_remove_key o ex m s k = Done (m', s') /\ valid m' s' /\
      let l := contents m s in
      (l = [] /\ contents m' s' = [] \/
       exists i e, ord_search o l k = Done (Z.of_nat i, oeq o k (fst e)) /\ nth_error l i = Some e /\
         contents m' s' = if oeq o k (fst e) then firstn i l ++ skipn (S i) l else l).
  Proof.
    intros Vs. unfold ord_remove_key. pose proof (contents_length m s Vs) as CL.
    destruct (ord_search_total o (contents m s) k) as [(E & ->)|(i & e & Es & N & L)]; cbn [obind].
    - exists m, s. split; auto.
    - rewrite Es. cbn [obind]. rewrite Nat2Z.id. destruct (oeq o k (fst e)) eqn:Q.
      + destruct (reslice_spec m s 0 i Vs) as (b & Eb & Cb & Vb & _); [lia|]. rewrite Eb. cbn [obind].
        destruct (reslice_spec m s (i + 1) (slen s) Vs) as (a & Ea & Ca & Va & _); [lia|]. rewrite Ea. cbn [obind].
        pose proof (sappend_spec ex m b (contents m a) Vb) as P. destruct (sappend ex m b (contents m a)) as [m' s'].
        destruct P as (P1 & P2 & _). exists m', s'. split; auto. split; auto. right. exists i, e. rewrite Q. split; auto. split; auto.
        rewrite P2, Cb, Ca. rewrite skipn_O. rewrite Nat.sub_0_r. replace (i + 1) with (S i) by lia. f_equal.
        apply firstn_all2. rewrite skipn_length. lia.
      + exists m, s. split; auto. split; auto. right. exists i, e. rewrite Q. auto.
  Qed.

  Lemma remove_elem_rm (same : V -> bool) (all : bool) (x : list V) : (if all then remove_elems same x else remove_elem same x) = rm all same x.
  Proof.
    destruct all; simpl.
    - unfold rm_all. induction x as [|y x IH]; simpl; auto. destruct (same y); simpl; [auto|f_equal; auto].
    - induction x as [|y x IH]; simpl; auto. destruct (same y); [auto|f_equal; auto].
  Qed.

  Lemma ord_remove_value_contents same m s k all : valid m s ->
    exists m' s', ord_remove_value o same m s k all = Done (m', s') /\ valid m' s' /\
      let l := contents m s in
      (l = [] /\ contents m' s' = [] \/
       exists i e, ord_search o l k = Done (Z.of_nat i, oeq o k (fst e)) /\ nth_error l i = Some e /\
         contents m' s' = if oeq o k (fst e) then firstn i l ++ (k, rm all same (snd e)) :: skipn (S i) l else l).
  Proof.
    intros Vs. unfold ord_remove_value. pose proof (contents_length m s Vs) as CL.
    destruct (ord_search_total o (contents m s) k) as [(E & ->)|(i & e & Es & N & L)]; cbn [obind].
    - exists m, s. split; auto.
    - rewrite Es. cbn [obind]. rewrite Nat2Z.id. destruct (oeq o k (fst e)) eqn:Q.
      + unfold sget. rewrite N. cbn [obind]. rewrite remove_elem_rm.
        pose proof (sset_spec m s i (k, rm all same (snd e)) Vs) as P. destruct (sset m s i (k, rm all same (snd e))) as [m'| |]; cbn [obind]; [|lia|tauto].
        destruct P as (_ & _ & _ & P & V'). exists m', s. split; auto. split; auto. right. exists i, e. rewrite Q. split; auto. split; auto.
        apply (set_nth_split _ _ _ _ _ N P).
      + exists m, s. split; auto. split; auto. right. exists i, e. rewrite Q. auto.
  Qed.

  Lemma nth_split_list {A} (l : list A) i e : nth_error l i = Some e -> l = firstn i l ++ e :: skipn (S i) l.
  Proof.
    revert i. induction l as [|x l IH]; intros [|i] N; simpl in *; try discriminate; [congruence|f_equal; auto].
  Qed.
  Lemma firstn_S_nth {A} (l : list A) i e : nth_error l i = Some e -> firstn (S i) l = firstn i l ++ [e].
  Proof.
    revert i. induction l as [|x l IH]; intros [|i] N; simpl in *; try discriminate; [congruence|f_equal; auto].
  Qed.

  (** sorted list, position of the search result: keys before are smaller *)
  Lemma sorted_split l i e : ksorted o l -> nth_error l i = Some e ->
    (forall a, In a (firstn i l) -> key_lt o (fst a) (fst e)) /\ (forall a, In a (skipn (S i) l) -> key_lt o (fst e) (fst a)) /\
    ksorted o (firstn i l) /\ ksorted o (skipn (S i) l).
  Proof.
    intros SO N. pose proof (nth_split_list l i e N) as E. unfold ksorted in *. rewrite E, map_app in SO. cbn [map] in SO.
    destruct (sorted_app_l _ _ _ SO) as (A & B & C). inversion B as [|? ? B' F]; subst. rewrite Forall_forall in F.
    split; [|split; [|split; auto]].
    - intros a I. apply C; [apply in_map; auto|simpl; auto].
    - intros a I. apply F. apply in_map; auto.
  Qed.

  Definition inv_ord m s (f : K -> option (list V)) : Prop :=
    valid m s /\ ksorted o (contents m s) /\ forall k, lookup (contents m s) k = f k.

  (** lookups in a sorted list around a position *)
  Lemma lookup_around l i e k : ksorted o l -> nth_error l i = Some e ->
    lookup l k = if oeq o k (fst e) then Some (snd e) else
                 match lookup (firstn i l) k with Some x => Some x | None => lookup (skipn (S i) l) k end.
  Proof.
    intros SO N. destruct (sorted_split l i e SO N) as (A & _). rewrite (nth_split_list l i e N) at 1. rewrite lookup_app. simpl.
    destruct (oeq o k (fst e)) eqn:Q; auto. apply OL in Q. subst k.
    replace (lookup (firstn i l) (fst e)) with (@None (list V)); auto. symmetry. apply lookup_none. intros I.
    apply in_map_iff in I as (a & Ea & Ia). apply A in Ia. unfold key_lt in Ia. rewrite Ea in Ia. rewrite (ol_irr o OL) in Ia. discriminate.
  Qed.

  Lemma sorted_replace l i e e' : ksorted o l -> nth_error l i = Some e -> fst e' = fst e ->
    ksorted o (firstn i l ++ e' :: skipn (S i) l).
  Proof.
    intros SO N E. unfold ksorted in *. rewrite (nth_split_list l i e N) in SO. rewrite map_app in *. cbn [map] in *. rewrite E. exact SO.
  Qed.

  Lemma lookup_replace l i e e' k : ksorted o l -> nth_error l i = Some e -> fst e' = fst e ->
    lookup (firstn i l ++ e' :: skipn (S i) l) k = if oeq o k (fst e) then Some (snd e') else lookup l k.
  Proof.
    intros SO N E. rewrite (lookup_around l i e k SO N).
    pose proof (sorted_replace l i e e' SO N E) as S'.
    assert (LEN : length (firstn i l) = i). { rewrite firstn_length. assert (i < length l) by (apply nth_error_Some; congruence). lia. }
    assert (N' : nth_error (firstn i l ++ e' :: skipn (S i) l) i = Some e').
    { rewrite nth_error_app2, LEN, Nat.sub_diag by lia. reflexivity. }
    rewrite (lookup_around _ i e' k S' N'). rewrite E. destruct (oeq o k (fst e)); auto.
    rewrite firstn_app, LEN, Nat.sub_diag, firstn_O, app_nil_r, firstn_firstn, Nat.min_id.
    replace (skipn (S i) (firstn i l ++ e' :: skipn (S i) l)) with (skipn (S i) l); auto.
    rewrite skipn_app, LEN. rewrite (skipn_all2 (firstn i l)) by lia. replace (S i - i) with 1 by lia. reflexivity.
  Qed.

  Lemma not_found l k i e : ksorted o l -> nth_error l i = Some e -> oeq o k (fst e) = false ->
    (i = 0 \/ olt o k (fst e) = false) -> (forall j e', i < j -> nth_error l j = Some e' -> olt o k (fst e') = true) ->
    lookup l k = None /\ (forall a, In a (skipn (S i) l) -> key_lt o k (fst a)).
  Proof.
    intros SO N Q H R. assert (AFT : forall a, In a (skipn (S i) l) -> key_lt o k (fst a)).
    { intros a I. apply In_nth_error in I as (j & J). rewrite nth_error_skipn' in J. eapply R; [|exact J]. lia. }
    split; auto. rewrite (lookup_around l i e k SO N), Q. destruct (sorted_split l i e SO N) as (A & _).
    replace (lookup (firstn i l) k) with (@None (list V)).
    - apply lookup_none. intros I. apply in_map_iff in I as (a & <- & I). apply AFT in I. unfold key_lt in I.
      rewrite (ol_irr o OL) in I. discriminate.
    - symmetry. apply lookup_none. intros I. apply in_map_iff in I as (a & Ea & I). pose proof (A a I) as LT. unfold key_lt in LT.
      rewrite Ea in LT. destruct H as [->|H]; [destruct I|congruence].
  Qed.

  Lemma run_ordop_spec same m s f op : inv_ord m s f ->
    (match op with OAdd k _ => (forall k', f k' = None) \/ (exists k', f k' <> None /\ (k' = k \/ key_lt o k' k)) | _ => True end) ->
    exists m' s', run_ordop o same ex (m, s) op = Done (m', s') /\ inv_ord m' s' (spec_ordop o same f op).
  Proof.
    intros (Vs & SO & F) H. destruct op as [k v|k|k v all]; cbn [run_ordop spec_ordop fst snd].
    - destruct (ord_add_contents m s k v Vs) as (m' & s' & E & V' & [(Ce & C)|(i & e & Es & N & C)]); exists m', s'; (split; [auto|]); (split; [auto|]).
      + rewrite C. split; [repeat constructor|]. intros k'. unfold fset. simpl. rewrite <- !F, Ce. destruct (oeq o k' k); reflexivity.
      + assert (NE : contents m s <> []) by (intros Q; rewrite Q in N; destruct i; discriminate).
        destruct (ord_search_sorted o OL (contents m s) k SO NE) as (i' & e' & Es' & N' & Hl & Hr).
        rewrite Es in Es'. assert (i' = i) by (injection Es' as Es' _; lia). subst i'. assert (e' = e) by congruence. subst e'.
        destruct C as [(Q & C)|(Q & C)]; rewrite C.
        * apply OL in Q. split; [eapply sorted_replace; eauto|]. intros k'. rewrite (lookup_replace _ i e) by auto.
          unfold fset. rewrite <- Q. destruct (oeq o k' k); [|apply F]. cbn [snd]. f_equal. rewrite <- F.
          rewrite (lookup_around _ i e k SO N), <- Q, oeqb_refl. reflexivity.
        * destruct (not_found _ k i e SO N Q Hl Hr) as (LN & AFT). destruct (sorted_split _ i e SO N) as (A1 & A2 & A3 & A4).
          assert (LTE : key_lt o (fst e) k).
          { destruct H as [H|(k' & P & LE)].
            - exfalso. assert (X : lookup (contents m s) (fst e) <> None); [|rewrite F in X; auto].
              rewrite lookup_none. intros X. apply X. apply in_map. eapply nth_error_In; eauto.
            - rewrite <- F in P. destruct (lookup (contents m s) k') as [x|] eqn:LK; [|congruence]. apply lookup_in in LK.
              assert (LT : key_lt o k' k). { destruct LE as [->|]; auto. exfalso. apply (proj1 (lookup_none _ _) LN). apply (in_map fst) in LK. exact LK. }
              destruct Hl as [->|Hl].
              + (* index 0: k' is at or after e *)
                rewrite (nth_split_list _ 0 e N) in LK. cbn [firstn app] in LK. destruct LK as [Eq|I]; [rewrite Eq; exact LT|].
                apply AFT in I. unfold key_lt in *. cbn [fst] in I. rewrite (olt_asym _ _ I) in LT. discriminate.
              + destruct (ol_total o OL (fst e) k) as [|[Q'|Q']]; auto.
                * subst k. rewrite oeqb_refl in Q. discriminate.
                * congruence. }
          rewrite (firstn_S_nth _ i e N). split.
          -- unfold ksorted in *. rewrite !map_app. cbn [map]. apply sorted_app_r.
             ++ apply sorted_app_r; auto; [repeat constructor|]. intros a b I [<-|[]]. apply in_map_iff in I as (x & <- & I). auto.
             ++ constructor; auto. rewrite Forall_forall. intros b I. apply in_map_iff in I as (x & <- & I). apply AFT; auto.
             ++ intros a b Ia Ib. assert (LA : key_lt o a k).
                { apply in_app_or in Ia as [Ia|[<-|[]]]; auto. apply in_map_iff in Ia as (x & <- & Ia). unfold key_lt in *. eapply (ol_trans o OL); [apply A1; exact Ia|exact LTE]. }
                destruct Ib as [<-|Ib]; auto. apply in_map_iff in Ib as (x & <- & Ib). unfold key_lt in *. eapply (ol_trans o OL); [exact LA|apply AFT; exact Ib].
          -- intros k'. unfold fset. rewrite !lookup_app. simpl. rewrite <- (F k), LN. cbn [app]. rewrite <- F. rewrite (lookup_around _ i e k' SO N).
             destruct (oeq o k' k) eqn:Qk.
             ++ apply OL in Qk. subst k'. rewrite Q. rewrite (lookup_around _ i e k SO N), Q in LN.
                destruct (lookup (firstn i (contents m s)) k); [discriminate|]. reflexivity.
             ++ destruct (oeq o k' (fst e)) eqn:Qe.
                ** apply OL in Qe. subst k'. replace (lookup (firstn i (contents m s)) (fst e)) with (@None (list V)); auto.
                   symmetry. apply lookup_none. intros I. apply in_map_iff in I as (a & Ea & I). apply A1 in I. unfold key_lt in I. rewrite Ea, (ol_irr o OL) in I. discriminate.
                ** destruct (lookup (firstn i (contents m s)) k'); reflexivity.
    - destruct (ord_remove_key_contents m s k Vs) as (m' & s' & E & V' & [(Ce & C)|(i & e & Es & N & C)]); exists m', s'; (split; [auto|]); (split; [auto|]).
      + rewrite C. split; [constructor|]. intros k'. unfold fset. rewrite <- F, Ce. simpl. destruct (oeq o k' k); reflexivity.
      + assert (NE : contents m s <> []) by (intros Q; rewrite Q in N; destruct i; discriminate).
        destruct (ord_search_sorted o OL (contents m s) k SO NE) as (i' & e' & Es' & N' & Hl & Hr).
        rewrite Es in Es'. assert (i' = i) by (injection Es' as Es' _; lia). subst i'. assert (e' = e) by congruence. subst e'.
        rewrite C. destruct (oeq o k (fst e)) eqn:Q.
        * apply OL in Q. destruct (sorted_split _ i e SO N) as (A1 & A2 & A3 & A4). split.
          -- unfold ksorted in *. rewrite map_app. apply sorted_app_r; auto. intros a b Ia Ib.
             apply in_map_iff in Ia as (x & <- & Ia). apply in_map_iff in Ib as (y & <- & Ib).
             unfold key_lt in *. eapply (ol_trans o OL); [apply A1; auto|apply A2; auto].
          -- intros k'. rewrite lookup_app. unfold fset. rewrite <- F, (lookup_around _ i e k' SO N). rewrite Q.
             destruct (oeq o k' (fst e)) eqn:Qk; auto. apply OL in Qk. subst k'.
             replace (lookup (firstn i (contents m s)) (fst e)) with (@None (list V)).
             ++ apply lookup_none. intros I. apply in_map_iff in I as (a & Ea & I). apply A2 in I. unfold key_lt in I. rewrite Ea, (ol_irr o OL) in I. discriminate.
             ++ symmetry. apply lookup_none. intros I. apply in_map_iff in I as (a & Ea & I). apply A1 in I. unfold key_lt in I. rewrite Ea, (ol_irr o OL) in I. discriminate.
        * split; auto. destruct (not_found _ k i e SO N Q Hl Hr) as (LN & _). intros k'. unfold fset.
          destruct (oeq o k' k) eqn:Qk; [|apply F]. apply OL in Qk. subst k'. exact LN.
    - destruct (ord_remove_value_contents (fun t => same t v) m s k all Vs) as (m' & s' & E & V' & [(Ce & C)|(i & e & Es & N & C)]); exists m', s'; (split; [auto|]); (split; [auto|]).
      + rewrite C. split; [constructor|]. intros k'. unfold fset. rewrite <- !F, Ce. simpl. destruct (oeq o k' k); reflexivity.
      + assert (NE : contents m s <> []) by (intros Q; rewrite Q in N; destruct i; discriminate).
        destruct (ord_search_sorted o OL (contents m s) k SO NE) as (i' & e' & Es' & N' & Hl & Hr).
        rewrite Es in Es'. assert (i' = i) by (injection Es' as Es' _; lia). subst i'. assert (e' = e) by congruence. subst e'.
        rewrite C. destruct (oeq o k (fst e)) eqn:Q.
        * apply OL in Q. split; [eapply sorted_replace; eauto|]. intros k'. rewrite (lookup_replace _ i e) by auto.
          unfold fset. rewrite <- Q. destruct (oeq o k' k); [|apply F]. cbn [snd]. rewrite <- F.
          rewrite (lookup_around _ i e k SO N), <- Q, oeqb_refl. reflexivity.
        * split; auto. destruct (not_found _ k i e SO N Q Hl Hr) as (LN & _). intros k'. unfold fset.
          destruct (oeq o k' k) eqn:Qk; [|apply F]. apply OL in Qk. subst k'. rewrite <- F, LN. reflexivity.
  Qed.

  Lemma run_ordops_spec same ops : forall m s f, inv_ord m s f -> no_new_minimum o same f ops ->
    exists m' s', run_ordops o same ex (m, s) ops = Done (m', s') /\ inv_ord m' s' (fold_left (spec_ordop o same) ops f).
  Proof.
    induction ops as [|op ops IH]; intros m s f I H; cbn [run_ordops fold_left]; [eauto|]. destruct H as (H1 & H2).
    destruct (run_ordop_spec same m s f op I H1) as (m' & s' & E & I'). rewrite E. cbn [obind]. apply IH; auto.
  Qed.

  (** pairs *)
  Lemma pairs_app (a b : list tup) : pairs (a ++ b) = pairs a ++ pairs (V := V) b.
  Proof. unfold pairs. apply flat_map_app. Qed.

  Lemma ord_add_pairs m s k v : valid m s ->
    exists m' s', ord_add o ex m s k v = Done (m', s') /\ valid m' s' /\
      Permutation (pairs (contents m' s')) ((k, v) :: pairs (contents m s)).
  Proof.
    intros Vs. destruct (ord_add_contents m s k v Vs) as (m' & s' & E & V' & [(Ce & C)|(i & e & Es & N & C)]); exists m', s'; (split; [auto|]); (split; [auto|]).
    - rewrite C, Ce. reflexivity.
    - destruct C as [(Q & C)|(Q & C)]; rewrite C.
      + apply OL in Q. rewrite (nth_split_list _ i e N) at 3. rewrite !pairs_app. cbn [pairs flat_map].
        fold (pairs (skipn (S i) (contents m s))). cbn [fst snd]. rewrite map_app. cbn [map]. rewrite <- Q.
        rewrite <- !app_assoc. rewrite Permutation_middle. apply Permutation_app_head.
        rewrite Permutation_middle. apply Permutation_app_head. reflexivity.
      + rewrite <- (firstn_skipn (S i) (contents m s)) at 3. rewrite !pairs_app. cbn [pairs flat_map map fst snd app].
        fold (pairs (skipn (S i) (contents m s))). rewrite Permutation_middle. reflexivity.
  Qed.
End Multi.
