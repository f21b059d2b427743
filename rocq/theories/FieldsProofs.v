(** Proofs about reflect.Type.FieldByName: the search by levels finds what a selector selects. *)
From Coq Require Import ZArith List Bool Lia.
From Verif Require Import Base Rest Fields FieldsSpec.
Import ListNotations.
Open Scope nat_scope.

Lemma str_eqb_eq a b : str_eqb a b = true <-> a = b.
Proof. unfold str_eqb. destruct (list_eq_dec Z.eq_dec a b); split; congruence. Qed.
Lemma str_eqb_neq a b : str_eqb a b = false <-> a <> b.
Proof. unfold str_eqb. destruct (list_eq_dec Z.eq_dec a b); split; congruence. Qed.

Lemma NoDup_app_snoc {A} (l : list A) x : NoDup l -> ~ In x l -> NoDup (l ++ [x]).
Proof.
  intros N I. apply NoDup_rev in N. rewrite <- (rev_involutive (l ++ [x])). apply NoDup_rev. rewrite rev_app_distr. cbn. constructor; [|exact N].
  intros J. apply I. apply in_rev. exact J.
Qed.

Section Search.
  Variable types : list (list field).
  Notation fields := (fields types).
  Notation reaches := (reaches types).
  Notation leads_to := (leads_to types).

  Lemma reaches_snoc_inv t p i v : reaches t (p ++ [i]) v -> exists u f, reaches t p u /\ nth_error (fields u) i = Some f /\ embedded_struct f = Some v.
  Proof.
    intros H. inversion H as [E|path u j f w R N Em E].
    - destruct p; discriminate.
    - apply app_inj_tail in E. destruct E as [-> ->]. eauto.
  Qed.
  Lemma reaches_nil_inv t v : reaches t [] v -> v = t.
  Proof. intros H. inversion H as [E|path u j f w R N Em E]; [reflexivity|destruct path; discriminate]. Qed.
  Lemma reaches_fun t p : forall v w, reaches t p v -> reaches t p w -> v = w.
  Proof.
    induction p as [|i p IH] using rev_ind; intros v w A B.
    - apply reaches_nil_inv in A. apply reaches_nil_inv in B. congruence.
    - apply reaches_snoc_inv in A. apply reaches_snoc_inv in B. destruct A as (u & f & A1 & A2 & A3), B as (u' & f' & B1 & B2 & B3).
      rewrite (IH _ _ A1 B1) in A2. congruence.
  Qed.
  Lemma leads_inv t name p f : leads_to t name p f -> exists q u i, p = q ++ [i] /\ reaches t q u /\ nth_error (fields u) i = Some f /\ fname f = name.
  Proof. intros H. inversion H; subst. eauto 8. Qed.

  (** ** One level as a list of items: a field, the indexes that lead to it, and whether its struct is reached more than once *)
  Notation item := (bool * list nat * field)%type.
  Variable name : str.
  Definition matches (x : item) : bool := str_eqb (fname (snd x)) name.
  Notation state := (found * list (nat * list nat) * list (nat * nat))%type.
  Definition scan_item (x : item) (st : state) : option state :=
    let '(multiple, path, f) := x in let '(ok, next, nc) := st in
    if matches x then
      if multiple || (match ok with Some _ => true | None => false end) then None else Some (Some (path, f), next, nc)
    else match ok, embedded_struct f with
         | Some _, _ | _, None => Some st
         | None, Some styp =>
             if 0 <? count_of nc styp then Some (ok, next, set_count nc styp 2)
             else Some (ok, next ++ [(styp, path)], set_count nc styp (if multiple then 2 else 1))
         end.
  Fixpoint scan_items (xs : list item) (st : state) : option state :=
    match xs with [] => Some st | x :: xs => match scan_item x st with Some st => scan_items xs st | None => None end end.
  Lemma scan_items_app a b st : scan_items (a ++ b) st = match scan_items a st with Some st => scan_items b st | None => None end.
  Proof. revert st. induction a as [|x a IH]; intros st; [reflexivity|]. cbn. destruct (scan_item x st); auto. Qed.

  Fixpoint items_of (m : bool) (index : list nat) (i : nat) (fs : list field) : list item :=
    match fs with [] => [] | f :: fs => (m, index ++ [i], f) :: items_of m index (S i) fs end.
  Lemma scan_fields_items m index fs : forall i st, scan_fields name m index i fs st = scan_items (items_of m index i fs) st.
  Proof.
    induction fs as [|f fs IH]; intros i [[ok next] nc]; [reflexivity|]. cbn [scan_fields items_of scan_items scan_item]. unfold matches. cbn [snd].
    destruct (str_eqb (fname f) name).
    - destruct (m || _); [reflexivity|]. apply IH.
    - destruct ok as [r|]; [apply IH|]. destruct (embedded_struct f) as [styp|]; [|apply IH]. destruct (0 <? count_of nc styp); apply IH.
  Qed.
  Lemma items_of_in m index fs : forall i x, In x (items_of m index i fs) <-> exists j f, nth_error fs j = Some f /\ x = (m, index ++ [i + j], f).
  Proof.
    induction fs as [|f fs IH]; intros i x; cbn [items_of In].
    - split; [tauto|]. intros (j & f & N & _). destruct j; discriminate.
    - rewrite IH. split.
      + intros [<-|(j & g & N & ->)]; [exists 0, f; rewrite Nat.add_0_r; auto|]. exists (S j), g. rewrite Nat.add_succ_r. auto.
      + intros ([|j] & g & N & ->); cbn in N; [left; injection N as ->; rewrite Nat.add_0_r; reflexivity|]. right. exists j, g. rewrite Nat.add_succ_r. auto.
  Qed.

  Definition vis (visited : list nat) (t : nat) : bool := existsb (Nat.eqb t) visited.
  Lemma vis_In visited t : vis visited t = true <-> In t visited.
  Proof. unfold vis. rewrite existsb_exists. split; [intros (x & I & E); apply Nat.eqb_eq in E; congruence|intros I; exists t; rewrite Nat.eqb_refl; auto]. Qed.
  Definition level_items (count : list (nat * nat)) (cur : list (nat * list nat)) : list item :=
    flat_map (fun e => items_of (1 <? count_of count (fst e)) (snd e) 0 (fields (fst e))) cur.
  Lemma scan_level_items count : forall current visited st, NoDup (map fst current) ->
    let cur := filter (fun e => negb (vis visited (fst e))) current in
    scan_level types name count current visited st =
    match scan_items (level_items count cur) st with Some st => Some (rev (map fst cur) ++ visited, st) | None => None end.
  Proof.
    induction current as [|[t index] current IH]; intros visited st ND; [reflexivity|]. cbn [map fst] in ND. inversion ND as [|? ? NI ND']; subst.
    cbn [scan_level filter fst]. fold (vis visited t). destruct (vis visited t) eqn:V; cbn [negb]; [apply IH; exact ND'|].
    unfold level_items. cbn [flat_map fst snd]. rewrite scan_items_app, scan_fields_items. destruct (scan_items (items_of _ _ _ _) st) as [st'|]; [|reflexivity].
    rewrite (IH (t :: visited) st' ND').
    assert (E : filter (fun e => negb (vis (t :: visited) (fst e))) current = filter (fun e => negb (vis visited (fst e))) current).
    { apply filter_ext_in. intros [u p] I. cbn [fst]. unfold vis. cbn [existsb]. destruct (Nat.eqb_spec u t) as [->|]; [|reflexivity].
      exfalso. apply NI. apply (in_map fst) in I. exact I. }
    rewrite E. fold (level_items count (filter (fun e => negb (vis visited (fst e))) current)). destruct (scan_items (level_items count _) st'); [|reflexivity].
    cbn [map fst rev]. rewrite <- app_assoc. reflexivity.
  Qed.

  (** ** Matches among the items *)
  Lemma scan_after_match xs : forall r next nc, scan_items xs (Some r, next, nc) = if existsb matches xs then None else Some (Some r, next, nc).
  Proof.
    induction xs as [|[[m p] f] xs IH]; intros r next nc; [reflexivity|]. cbn [scan_items scan_item existsb].
    destruct (matches (m, p, f)); [rewrite orb_true_r; reflexivity|]. cbn [orb]. apply IH.
  Qed.
  Lemma scan_no_match_some xs : forall next nc, existsb matches xs = false -> exists next' nc', scan_items xs (None, next, nc) = Some (None, next', nc').
  Proof.
    induction xs as [|[[m p] f] xs IH]; intros next nc E; [do 2 eexists; reflexivity|]. cbn [existsb] in E. apply orb_false_iff in E. destruct E as [E1 E2].
    cbn [scan_items scan_item]. rewrite E1. destruct (embedded_struct f) as [v|]; [|apply IH, E2]. destruct (0 <? count_of nc v); apply IH, E2.
  Qed.
  Lemma scan_match a m p f b next nc : existsb matches a = false -> matches (m, p, f) = true ->
    (m = true \/ existsb matches b = true -> scan_items (a ++ (m, p, f) :: b) (None, next, nc) = None) /\
    (m = false -> existsb matches b = false -> exists next' nc', scan_items (a ++ (m, p, f) :: b) (None, next, nc) = Some (Some (p, f), next', nc')).
  Proof.
    intros Ea M. destruct (scan_no_match_some a next nc Ea) as (next' & nc' & E). rewrite scan_items_app, E. cbn [scan_items scan_item]. rewrite M. split.
    - intros [->|Eb]; [reflexivity|]. destruct m; [reflexivity|]. cbn [orb]. rewrite scan_after_match, Eb. reflexivity.
    - intros -> Eb. cbn [orb]. rewrite scan_after_match, Eb. eauto.
  Qed.
  Lemma first_match (xs : list item) : existsb matches xs = false \/ exists a x b, xs = a ++ x :: b /\ existsb matches a = false /\ matches x = true.
  Proof.
    induction xs as [|x xs IH]; [left; reflexivity|]. cbn [existsb]. destruct (matches x) eqn:M; [right; exists [], x, xs; auto|]. cbn [orb].
    destruct IH as [IH|(a & y & b & -> & A & B)]; [left; exact IH|]. right. exists (x :: a), y, b. cbn [existsb app]. rewrite M. auto.
  Qed.

  (** ** The next level, when nothing matches *)
  Notation path_of := (fun x : item => snd (fst x)).
  Record queued (done : list item) (next : list (nat * list nat)) (nc : list (nat * nat)) : Prop := {
    q_nodup : NoDup (map fst next);
    q_from : forall v q, In (v, q) next -> exists m f, In (m, q, f) done /\ embedded_struct f = Some v;
    q_all : forall m p f v, In (m, p, f) done -> embedded_struct f = Some v -> exists q, In (v, q) next;
    q_zero : forall v, count_of nc v = 0 <-> ~ In v (map fst next);
    q_count : forall v q, In (v, q) next -> (1 < count_of nc v <-> exists m p f, In (m, p, f) done /\ embedded_struct f = Some v /\ (m = true \/ p <> q))
  }.
  Lemma count_set nc v n u : count_of (set_count nc v n) u = if v =? u then n else count_of nc u.
  Proof. unfold count_of, set_count. cbn [find fst]. destruct (v =? u); reflexivity. Qed.
  Lemma NoDup_fst_fun {A B} (l : list (A * B)) v p q : NoDup (map fst l) -> In (v, p) l -> In (v, q) l -> p = q.
  Proof.
    induction l as [|[a b] l IH]; intros ND I J; [destruct I|]. cbn in ND. inversion ND; subst. destruct I as [E|I], J as [E'|J]; try congruence.
    - injection E as -> ->. exfalso. apply (in_map fst) in J. auto.
    - injection E' as -> ->. exfalso. apply (in_map fst) in I. auto.
    - auto.
  Qed.
  Lemma queue_items xs : forall done next nc next' nc', NoDup (map path_of (done ++ xs)) -> queued done next nc ->
    scan_items xs (None, next, nc) = Some (None, next', nc') -> existsb matches xs = false -> queued (done ++ xs) next' nc'.
  Proof.
    induction xs as [|[[m p] f] xs IH]; intros done next nc next' nc' ND Q H E.
    - cbn in H. injection H as <- <-. rewrite app_nil_r. exact Q.
    - cbn [existsb] in E. apply orb_false_iff in E. destruct E as [E1 E2]. cbn [scan_items scan_item] in H. rewrite E1 in H.
      replace (done ++ (m, p, f) :: xs) with ((done ++ [(m, p, f)]) ++ xs) in * by (rewrite <- app_assoc; reflexivity).
      assert (Np : forall m' f', ~ In (m', p, f') done).
      { intros m' f' I. rewrite map_app, map_app in ND. cbn [map] in ND. rewrite <- app_assoc in ND. apply NoDup_remove_2 in ND. apply ND.
        apply in_or_app. left. apply (in_map path_of) in I. exact I. }
      destruct Q as [Q1 Q2 Q3 Q4 Q5]. destruct (embedded_struct f) as [v|] eqn:Em.
      + destruct (Nat.ltb_spec 0 (count_of nc v)) as [L|L].
        * (* reached before *)
          refine (IH _ _ _ _ _ ND _ H E2). constructor.
          -- exact Q1.
          -- intros u q I. destruct (Q2 u q I) as (m' & f' & I' & Em'). exists m', f'. split; [apply in_or_app; left; exact I'|exact Em'].
          -- intros m' p' f' u I Em'. apply in_app_or in I. destruct I as [I|[I|[]]]; [eapply Q3; eauto|]. injection I as <- <- <-.
             assert (u = v) by congruence. subst u. assert (In v (map fst next)) as J by (destruct (in_dec Nat.eq_dec v (map fst next)) as [J|J]; [exact J|apply Q4 in J; lia]).
             apply in_map_iff in J. destruct J as ([v' q] & E' & J). cbn in E'. subst v'. eauto.
          -- intros u. rewrite count_set. destruct (Nat.eqb_spec v u) as [<-|N]; [|apply Q4]. split; [discriminate|]. intros J. apply Q4 in J. lia.
          -- intros u q I. rewrite count_set. destruct (Nat.eqb_spec v u) as [<-|N].
             ++ split; [|lia]. intros _. destruct (Q2 v q I) as (m' & f' & I' & Em'). exists m, p, f. split; [apply in_or_app; right; left; reflexivity|]. split; [exact Em|].
                right. intros ->. exact (Np _ _ I').
             ++ rewrite (Q5 u q I). split; intros (m' & p' & f' & I' & Em' & C); exists m', p', f'; split; auto; [apply in_or_app; auto|].
                apply in_app_or in I'. destruct I' as [I'|[I'|[]]]; [exact I'|]. injection I' as <- <- <-. congruence.
        * assert (Z0 : count_of nc v = 0) by lia. assert (NI : ~ In v (map fst next)) by (apply Q4; exact Z0).
          refine (IH _ _ _ _ _ ND _ H E2). constructor.
          -- rewrite map_app. cbn [map fst]. apply NoDup_app_snoc; assumption.
          -- intros u q I. apply in_app_or in I. destruct I as [I|[I|[]]].
             ++ destruct (Q2 u q I) as (m' & f' & I' & Em'). exists m', f'. split; [apply in_or_app; left; exact I'|exact Em'].
             ++ injection I as <- <-. exists m, f. split; [apply in_or_app; right; left; reflexivity|exact Em].
          -- intros m' p' f' u I Em'. apply in_app_or in I. destruct I as [I|[I|[]]].
             ++ destruct (Q3 _ _ _ _ I Em') as (q & J). exists q. apply in_or_app. left. exact J.
             ++ injection I as <- <- <-. assert (u = v) by congruence. subst u. exists p. apply in_or_app. right. left. reflexivity.
          -- intros u. rewrite count_set, map_app, in_app_iff. cbn [map fst In]. destruct (Nat.eqb_spec v u) as [<-|N]; [destruct m; split; [discriminate|tauto|discriminate|tauto]|].
             rewrite (Q4 u). tauto.
          -- intros u q I. rewrite count_set. apply in_app_or in I. destruct I as [I|[I|[]]].
             ++ destruct (Nat.eqb_spec v u) as [<-|N]; [exfalso; apply NI; apply (in_map fst) in I; exact I|]. rewrite (Q5 u q I).
                split; intros (m' & p' & f' & I' & Em' & C); exists m', p', f'; split; auto; [apply in_or_app; auto|].
                apply in_app_or in I'. destruct I' as [I'|[I'|[]]]; [exact I'|]. injection I' as <- <- <-. congruence.
             ++ injection I as <- <-. rewrite Nat.eqb_refl. split.
                ** intros L1. exists m, p, f. split; [apply in_or_app; right; left; reflexivity|]. split; [exact Em|]. left. destruct m; [reflexivity|lia].
                ** intros (m' & p' & f' & I' & Em' & C). apply in_app_or in I'. destruct I' as [I'|[I'|[]]].
                   --- exfalso. destruct (Q3 _ _ _ _ I' Em') as (q & J). apply NI. apply (in_map fst) in J. exact J.
                   --- injection I' as <- <- <-. destruct C as [->|C]; [lia|congruence].
      + refine (IH _ _ _ _ _ ND _ H E2). constructor.
        * exact Q1.
        * intros u q I. destruct (Q2 u q I) as (m' & f' & I' & Em'). exists m', f'. split; [apply in_or_app; left; exact I'|exact Em'].
        * intros m' p' f' u I Em'. apply in_app_or in I. destruct I as [I|[I|[]]]; [eapply Q3; eauto|]. injection I as <- <- <-. congruence.
        * exact Q4.
        * intros u q I. rewrite (Q5 u q I). split; intros (m' & p' & f' & I' & Em' & C); exists m', p', f'; split; auto; [apply in_or_app; auto|].
          apply in_app_or in I'. destruct I' as [I'|[I'|[]]]; [exact I'|]. injection I' as <- <- <-. congruence.
  Qed.
End Search.
