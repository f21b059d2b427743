(** Proofs about reflect.Type.FieldByName: from one level to the next. *)
From Coq Require Import ZArith List Bool Lia.
From Verif Require Import Base Rest Fields FieldsSpec FieldsProofs.
Import ListNotations.
Open Scope nat_scope.

Section Search.
  Variable types : list (list field).
  Notation fields := (fields types).
  Notation reaches := (reaches types).
  Notation leads_to := (leads_to types).
  Variable name : str.
  Variable t0 : nat.

  (** before the level at depth [d], when nothing was found above *)
  Record inv (d : nat) (count : list (nat * nat)) (next : list (nat * list nat)) (visited : list nat) : Prop := {
    i_above : forall p u f, reaches t0 p u -> length p < d -> In f (fields u) -> fname f <> name;
    i_visited : forall v, In v visited <-> exists p, reaches t0 p v /\ length p < d;
    i_nodup : NoDup (map fst next);
    i_next : forall v p, In (v, p) next -> reaches t0 p v /\ length p = d;
    i_all : forall v p, reaches t0 p v -> length p = d -> ~ In v visited -> exists q, In (v, q) next;
    i_count : forall v p, In (v, p) next -> ~ In v visited -> (1 < count_of count v <-> exists p', p' <> p /\ reaches t0 p' v /\ length p' = d)
  }.
  Lemma inv_start : inv 0 [] [(t0, [])] [].
  Proof.
    constructor.
    - intros; lia.
    - intros v. split; [intros []|intros (p & _ & L); lia].
    - repeat constructor. intros [].
    - intros v p [E|[]]. injection E as <- <-. split; [constructor|reflexivity].
    - intros v p R L _. destruct p; [|discriminate]. apply reaches_nil_inv in R. subst v. exists []. left. reflexivity.
    - intros v p [E|[]] _. injection E as <- <-. cbn. split; [lia|]. intros (p' & N & _ & L). destruct p'; [congruence|discriminate].
  Qed.

  Notation unvisited visited next := (filter (fun e : nat * list nat => negb (vis visited (fst e))) next).
  Lemma in_unvisited visited next v p : In (v, p) (unvisited visited next) <-> In (v, p) next /\ ~ In v visited.
  Proof.
    rewrite filter_In. cbn [fst]. rewrite negb_true_iff. split; intros [A B]; split; auto.
    - intros I. apply vis_In in I. congruence.
    - destruct (vis visited v) eqn:E; [|reflexivity]. apply vis_In in E. tauto.
  Qed.
  Lemma level_items_in count cur m p f : In (m, p, f) (level_items types count cur) <->
    exists v q i, In (v, q) cur /\ nth_error (fields v) i = Some f /\ m = (1 <? count_of count v) /\ p = q ++ [i].
  Proof.
    unfold level_items. rewrite in_flat_map. split.
    - intros ([v q] & I & J). cbn [fst snd] in J. apply items_of_in in J. destruct J as (j & g & N & E). injection E as -> -> ->. exists v, q, j. auto.
    - intros (v & q & i & I & N & -> & ->). exists (v, q). split; [exact I|]. cbn [fst snd]. apply items_of_in. exists i, f. auto.
  Qed.
  Lemma items_nodup m index fs : forall i, NoDup (map (fun x : bool * list nat * field => snd (fst x)) (items_of m index i fs)).
  Proof.
    induction fs as [|f fs IH]; intros i; cbn [items_of map]; constructor; [|apply IH]. cbn [fst snd]. intros I. apply in_map_iff in I.
    destruct I as (x & E & I). apply items_of_in in I. destruct I as (j & g & _ & ->). cbn [fst snd] in E. apply app_inj_tail in E. lia.
  Qed.
  Lemma level_nodup count cur : NoDup (map snd cur) -> NoDup (map (fun x : bool * list nat * field => snd (fst x)) (level_items types count cur)).
  Proof.
    induction cur as [|[v q] cur IH]; intros ND; [constructor|]. unfold level_items. cbn [flat_map fst snd]. rewrite map_app. cbn [map snd] in ND. inversion ND as [|? ? NI ND']; subst.
    assert (A : forall l1 l2 : list (list nat), NoDup l1 -> NoDup l2 -> (forall x, In x l1 -> ~ In x l2) -> NoDup (l1 ++ l2)).
    { induction l1 as [|x l1 IH1]; intros l2 N1 N2 D; [exact N2|]. inversion N1; subst. cbn. constructor.
      - intros I. apply in_app_or in I. destruct I as [I|I]; [auto|]. apply (D x (or_introl eq_refl) I).
      - apply IH1; auto. intros y I. apply D. right. exact I. }
    apply A; [apply items_nodup|apply IH; exact ND'|]. intros x I J. apply in_map_iff in I. destruct I as (y & <- & I). apply items_of_in in I. destruct I as (j & g & _ & ->).
    cbn [fst snd] in J. apply in_map_iff in J. destruct J as ([[m' p'] f'] & E & J). cbn [fst snd] in E. subst p'. apply (level_items_in count cur) in J.
    destruct J as (v' & q' & i' & J & _ & _ & E). apply app_inj_tail in E. destruct E as [E _]. subst q'. apply NI. apply (in_map snd) in J. exact J.
  Qed.
  Lemma unvisited_paths d count next visited : inv d count next visited -> NoDup (map snd (unvisited visited next)).
  Proof.
    intros I. assert (G : forall l, (forall v p, In (v, p) l -> reaches t0 p v) -> NoDup (map fst l) -> NoDup (map snd (unvisited visited l))).
    { induction l as [|[v p] l IH]; intros R ND; [constructor|]. cbn [map fst] in ND. inversion ND; subst. cbn [filter fst]. destruct (negb (vis visited v)).
      - cbn [map snd]. constructor; [|apply IH; [intros; apply R; right; assumption|assumption]]. intros J. apply in_map_iff in J. destruct J as ([w q] & E & J).
        cbn [snd] in E. subst q. apply filter_In in J. destruct J as [J _]. pose proof (R w p (or_intror J)) as R1. pose proof (R v p (or_introl eq_refl)) as R2.
        rewrite (reaches_fun types t0 p v w R2 R1) in *. apply (in_map fst) in J. auto.
      - apply IH; [intros; apply R; right; assumption|assumption]. }
    apply G; [intros v p J; apply (i_next _ _ _ _ I v p J)|apply (i_nodup _ _ _ _ I)].
  Qed.

  (** a match at depth [d] is in a struct that was not visited *)
  Lemma match_item d count next visited p u i f : inv d count next visited -> reaches t0 p u -> length p = d -> nth_error (fields u) i = Some f -> fname f = name ->
    exists q, In (u, q) (unvisited visited next) /\ (p = q \/ 1 < count_of count u).
  Proof.
    intros I R L N E. assert (NV : ~ In u visited).
    { intros V. apply (i_visited _ _ _ _ I) in V. destruct V as (p' & R' & L'). apply nth_error_In in N. exact (i_above _ _ _ _ I p' u f R' L' N E). }
    destruct (i_all _ _ _ _ I u p R L NV) as (q & J). exists q. split; [apply in_unvisited; auto|].
    destruct (list_eq_dec Nat.eq_dec p q) as [->|Ne]; [left; reflexivity|right]. apply (i_count _ _ _ _ I u q J NV). exists p. auto.
  Qed.
  Lemma matches_existsb xs : existsb (matches name) xs = false <-> forall m p f, In (m, p, f) xs -> fname f <> name.
  Proof.
    split.
    - intros E m p f I N. assert (existsb (matches name) xs = true) by (apply existsb_exists; exists (m, p, f); split; [exact I|apply str_eqb_eq; exact N]). congruence.
    - intros H. destruct (existsb (matches name) xs) eqn:E; [|reflexivity]. apply existsb_exists in E. destruct E as ([[m p] f] & I & M). apply str_eqb_eq in M.
      destruct (H m p f I M).
  Qed.
  (** nothing is found at depth [d] *)
  Lemma inv_step d count next visited next' nc' : inv d count next visited ->
    let cur := unvisited visited next in
    existsb (matches name) (level_items types count cur) = false ->
    scan_items name (level_items types count cur) (None, [], []) = Some (None, next', nc') -> inv (S d) nc' next' (rev (map fst cur) ++ visited).
  Proof.
    intros I cur E H. pose proof (proj1 (matches_existsb _) E) as NM.
    pose proof (level_nodup count cur (unvisited_paths _ _ _ _ I)) as ND.
    assert (Q : queued (level_items types count cur) next' nc').
    { change (level_items types count cur) with ([] ++ level_items types count cur). eapply queue_items; [exact ND| |exact H|exact E].
      constructor; [constructor|intros ? ? []|intros ? ? ? ? []|intros v; cbn; tauto|intros ? ? []]. }
    destruct Q as [Q1 Q2 Q3 Q4 Q5].
    assert (Vis : forall v, In v (rev (map fst cur) ++ visited) <-> exists p, reaches t0 p v /\ length p < S d).
    { intros v. rewrite in_app_iff, <- in_rev. split.
      - intros [J|J].
        + apply in_map_iff in J. destruct J as ([w q] & <- & J). apply in_unvisited in J. destruct J as [J _]. destruct (i_next _ _ _ _ I _ _ J) as [R L]. exists q. cbn. split; [exact R|lia].
        + apply (i_visited _ _ _ _ I) in J. destruct J as (p & R & L). exists p. split; [exact R|lia].
      - intros (p & R & L). destruct (in_dec Nat.eq_dec v visited) as [V|V]; [right; exact V|left]. destruct (Nat.eq_dec (length p) d) as [Ld|Ld].
        + destruct (i_all _ _ _ _ I v p R Ld V) as (q & J). apply in_map_iff. exists (v, q). split; [reflexivity|]. apply in_unvisited. auto.
        + exfalso. apply V, (i_visited _ _ _ _ I). exists p. split; [exact R|lia]. }
    (* what is reached at the next depth, and was not visited, comes from an unvisited struct *)
    assert (From : forall v p, reaches t0 p v -> length p = S d -> ~ In v (rev (map fst cur) ++ visited) ->
              exists p0 i u f q, p = p0 ++ [i] /\ reaches t0 p0 u /\ nth_error (fields u) i = Some f /\ embedded_struct f = Some v /\ In (u, q) cur /\ (p0 = q \/ 1 < count_of count u)).
    { intros v p R L NV. destruct (exists_last (l := p)) as (p0 & i & ->); [intros ->; discriminate|]. rewrite app_length in L. cbn in L.
      apply reaches_snoc_inv in R. destruct R as (u & f & R & N & Em). assert (Lp : length p0 = d) by lia.
      assert (NU : ~ In u visited).
      { intros V. apply (i_visited _ _ _ _ I) in V. destruct V as (p' & R' & L'). apply NV, Vis. exists (p' ++ [i]). split; [econstructor; eassumption|]. rewrite app_length. cbn. lia. }
      destruct (i_all _ _ _ _ I u p0 R Lp NU) as (q & J). exists p0, i, u, f, q. do 4 (split; [solve [auto]|]). split; [apply in_unvisited; auto|].
      destruct (list_eq_dec Nat.eq_dec p0 q) as [->|Ne]; [left; reflexivity|right]. apply (i_count _ _ _ _ I u q J NU). exists p0. auto. }
    constructor.
    - intros p u f R L F. destruct (Nat.eq_dec (length p) d) as [Ld|Ld]; [|apply (i_above _ _ _ _ I p u f R); [lia|exact F]].
      intros Nm. apply In_nth_error in F. destruct F as (i & F). destruct (match_item _ _ _ _ _ _ _ _ I R Ld F Nm) as (q & J & _).
      refine (NM _ _ f _ Nm). apply (level_items_in count cur). exists u, q, i. repeat split; auto.
    - exact Vis.
    - exact Q1.
    - intros v q J. destruct (Q2 v q J) as (m & f & K & Em). apply (level_items_in count cur) in K. destruct K as (u & q0 & i & K & N & _ & ->).
      apply in_unvisited in K. destruct K as [K _]. destruct (i_next _ _ _ _ I _ _ K) as [R L]. split; [econstructor; eassumption|]. rewrite app_length. cbn. lia.
    - intros v p R L NV. destruct (From v p R L NV) as (p0 & i & u & f & q & -> & R0 & N & Em & J & _).
      apply (Q3 (1 <? count_of count u) (q ++ [i]) f v); [|exact Em]. apply (level_items_in count cur). exists u, q, i. auto.
    - intros v q J NV. rewrite (Q5 v q J). split.
      + intros (m & p & f & K & Em & C). apply (level_items_in count cur) in K. destruct K as (u & q0 & i & K & N & -> & ->). apply in_unvisited in K. destruct K as [K NU].
        destruct (i_next _ _ _ _ I _ _ K) as [R L]. destruct (list_eq_dec Nat.eq_dec (q0 ++ [i]) q) as [Eq|Nq].
        * destruct C as [C|C]; [|congruence]. apply Nat.ltb_lt in C. apply (i_count _ _ _ _ I u q0 K NU) in C. destruct C as (p' & Np & R' & L').
          exists (p' ++ [i]). split; [intros X; rewrite <- X in Eq; apply app_inj_tail in Eq; destruct Eq; congruence|]. split; [econstructor; eassumption|]. rewrite app_length. cbn. lia.
        * exists (q0 ++ [i]). split; [exact Nq|]. split; [econstructor; eassumption|]. rewrite app_length. cbn. lia.
      + intros (p' & Np & R & L). destruct (From v p' R L NV) as (p0 & i & u & f & q0 & -> & R0 & N & Em & K & C).
        exists (1 <? count_of count u), (q0 ++ [i]), f. split; [apply (level_items_in count cur); exists u, q0, i; auto|]. split; [exact Em|].
        destruct C as [->|C]; [right; exact Np|left; apply Nat.ltb_lt; exact C].
  Qed.

  (** ** The answer *)
  Definition answers (r : found) : Prop :=
    (forall p f, r = Some (p, f) -> selects types t0 name p f) /\ (r = None -> forall p f, ~ selects types t0 name p f).

  Lemma inv_empty d count visited : inv d count [] visited -> forall p f, ~ leads_to t0 name p f.
  Proof.
    intros I. assert (A : forall p v, reaches t0 p v -> In v visited).
    { induction p as [|i p IH] using rev_ind; intros v R.
      - destruct (in_dec Nat.eq_dec v visited) as [V|V]; [exact V|]. destruct d as [|d].
        + destruct (i_all _ _ _ _ I v [] R eq_refl V) as (q & []).
        + exfalso. apply V, (i_visited _ _ _ _ I). exists []. split; [exact R|cbn; lia].
      - apply reaches_snoc_inv in R. destruct R as (u & f & R & N & Em). apply IH in R. apply (i_visited _ _ _ _ I) in R. destruct R as (q & R & L).
        destruct (in_dec Nat.eq_dec v visited) as [V|V]; [exact V|]. assert (Rv : reaches t0 (q ++ [i]) v) by (econstructor; eassumption).
        destruct (Nat.eq_dec (S (length q)) d) as [E|E].
        + destruct (i_all _ _ _ _ I v (q ++ [i]) Rv) as (q' & []); [rewrite app_length; cbn; lia|exact V].
        + exfalso. apply V, (i_visited _ _ _ _ I). exists (q ++ [i]). split; [exact Rv|]. rewrite app_length. cbn. lia. }
    intros p f H. apply leads_inv in H. destruct H as (q & u & i & -> & R & N & E). apply A in R. apply (i_visited _ _ _ _ I) in R. destruct R as (q' & R & L).
    apply nth_error_In in N. exact (i_above _ _ _ _ I q' u f R L N E).
  Qed.
  Lemma two_matches d count next visited p f p' f' : inv d count next visited -> leads_to t0 name p f -> length p = S d -> leads_to t0 name p' f' -> length p' = S d -> p <> p' ->
    forall q g, ~ selects types t0 name q g.
  Proof.
    intros I H L H' L' Ne q g [G U]. destruct (U p f H) as [C|C]; destruct (U p' f' H') as [C'|C']; try congruence.
    - (* deeper than d: impossible *) apply leads_inv in G. destruct G as (q0 & u & i & -> & R & N & E). rewrite app_length in C. cbn in C.
      apply nth_error_In in N. refine (i_above _ _ _ _ I q0 u g R _ N E). lia.
    - subst q. lia.
    - subst q. lia.
  Qed.
  (** the number of struct types of the table that were not visited *)
  Definition left_over (visited : list nat) : nat := length (filter (fun v => negb (vis visited v)) (seq 0 (length types))).
  Lemma left_over_less visited new v : In v new -> ~ In v visited -> v < length types -> left_over (new ++ visited) < left_over visited.
  Proof.
    intros I NV L. unfold left_over. assert (J : In v (seq 0 (length types))) by (apply in_seq; lia).
    assert (Le : forall l, length (filter (fun v => negb (vis (new ++ visited) v)) l) <= length (filter (fun v => negb (vis visited v)) l)).
    { induction l as [|x l IH]; [reflexivity|]. cbn [filter]. destruct (negb (vis (new ++ visited) x)) eqn:E1.
      - replace (negb (vis visited x)) with true; [cbn; lia|]. symmetry. apply negb_true_iff. apply negb_true_iff in E1. destruct (vis visited x) eqn:E2; [|reflexivity].
        apply vis_In in E2. rewrite <- E1. symmetry. apply vis_In, in_or_app. right. exact E2.
      - destruct (negb (vis visited x)); cbn; lia. }
    apply in_split in J. destruct J as (a & b & ->). rewrite !filter_app, !app_length. cbn [filter].
    replace (negb (vis (new ++ visited) v)) with false by (symmetry; apply negb_false_iff, vis_In, in_or_app; left; exact I).
    replace (negb (vis visited v)) with true by (symmetry; apply negb_true_iff; destruct (vis visited v) eqn:E; [apply vis_In in E; tauto|reflexivity]).
    pose proof (Le a). pose proof (Le b). cbn [length]. lia.
  Qed.
  Lemma no_items_next count cur next' nc' : (forall v p, In (v, p) cur -> length types <= v) ->
    scan_items name (level_items types count cur) (None, [], []) = Some (None, next', nc') -> next' = [].
  Proof.
    intros H E. assert (N : level_items types count cur = []).
    { clear E. induction cur as [|[v p] cur IH]; [reflexivity|]. unfold level_items. cbn [flat_map fst snd]. unfold fields. rewrite nth_overflow by (apply (H v p); left; reflexivity).
      cbn. apply IH. intros w q J. apply (H w q). right. exact J. }
    rewrite N in E. cbn in E. injection E as <- _. reflexivity.
  Qed.

  Lemma levels_answer : forall fuel d count next visited, inv d count next visited -> (next = [] \/ S (left_over visited) < fuel) -> 0 < fuel ->
    answers (scan_levels types fuel name count next visited).
  Proof.
    induction fuel as [|fuel IH]; intros d count next visited I Hf Pf; [lia|]. cbn [scan_levels]. destruct next as [|e next0].
    { split; [discriminate|]. intros _ p f [H _]. exact (inv_empty _ _ _ I p f H). }
    destruct Hf as [Hf|Hf]; [discriminate|]. set (next := e :: next0) in *. clearbody next. rewrite (scan_level_items types name count next visited (None, [], []) (i_nodup _ _ _ _ I)).
    set (cur := unvisited visited next). pose proof (unvisited_paths _ _ _ _ I) as NDp. fold cur in NDp. pose proof (level_nodup count cur NDp) as ND.
    assert (It : forall m p f, In (m, p, f) (level_items types count cur) -> fname f = name -> leads_to t0 name p f /\ length p = S d /\
              (m = true -> exists p', p' <> p /\ leads_to t0 name p' f /\ length p' = S d)).
    { intros m p f J Nm. apply (level_items_in count cur) in J. destruct J as (v & q & i & J & N & -> & ->). apply in_unvisited in J. destruct J as [J NV].
      destruct (i_next _ _ _ _ I _ _ J) as [R L]. split; [econstructor; eassumption|]. split; [rewrite app_length; cbn; lia|]. intros C. apply Nat.ltb_lt in C.
      apply (i_count _ _ _ _ I v q J NV) in C. destruct C as (p' & Np & R' & L'). exists (p' ++ [i]). split; [intros X; apply app_inj_tail in X; destruct X; congruence|].
      split; [econstructor; eassumption|]. rewrite app_length. cbn. lia. }
    destruct (first_match name (level_items types count cur)) as [E|(a & [[m p] f] & b & E & Ea & M)].
    - (* no match *)
      destruct (scan_no_match_some name (level_items types count cur) [] [] E) as (next' & nc' & Sc). rewrite Sc.
      pose proof (inv_step _ _ _ _ _ _ I E Sc) as I'. fold cur in I'. apply (IH (S d)); [exact I'| |lia].
      destruct (existsb (fun v => v <? length types) (map fst cur)) eqn:In_range.
      + right. apply existsb_exists in In_range. destruct In_range as (v & J & L). apply Nat.ltb_lt in L. assert (NV : ~ In v visited).
        { apply in_map_iff in J. destruct J as ([w q] & <- & J). apply in_unvisited in J. apply J. }
        pose proof (left_over_less visited (rev (map fst cur)) v (proj1 (in_rev _ _) J) NV L). lia.
      + left. apply (no_items_next count cur next' nc'); [|exact Sc]. intros v p J. apply Nat.nlt_ge. intros L.
        assert (existsb (fun v => v <? length types) (map fst cur) = true); [|congruence]. apply existsb_exists. exists v. split; [apply (in_map fst) in J; exact J|apply Nat.ltb_lt; exact L].
    - (* a match *)
      assert (Nm : fname f = name) by (apply str_eqb_eq in M; exact M).
      assert (Jx : In (m, p, f) (level_items types count cur)) by (rewrite E; apply in_or_app; right; left; reflexivity).
      destruct (It m p f Jx Nm) as (H & L & Mu). rewrite E. destruct (scan_match name a m p f b [] [] Ea M) as [S1 S2].
      destruct (m || existsb (matches name) b) eqn:C.
      + rewrite S1 by (apply orb_true_iff in C; exact C). split; [discriminate|]. intros _. apply orb_true_iff in C. destruct C as [C|C].
        * destruct (Mu C) as (p' & Np & H' & L'). exact (two_matches _ _ _ _ _ _ _ _ I H L H' L' (fun X => Np (eq_sym X))).
        * apply existsb_exists in C. destruct C as ([[m' p'] f'] & J & M'). apply str_eqb_eq in M'. cbn [snd] in M'.
          assert (Jy : In (m', p', f') (level_items types count cur)) by (rewrite E; apply in_or_app; right; right; exact J).
          destruct (It m' p' f' Jy M') as (H' & L' & _). refine (two_matches _ _ _ _ _ _ _ _ I H L H' L' _). intros <-.
          rewrite E, map_app in ND. cbn [map fst snd] in ND. apply NoDup_remove_2 in ND. apply ND, in_or_app. right.
          apply (in_map (fun x : bool * list nat * field => snd (fst x))) in J. exact J.
      + apply orb_false_iff in C. destruct C as [Cm Cb]. destruct (S2 Cm Cb) as (next' & nc' & ->). split; [|discriminate]. intros p0 f0 E0. injection E0 as <- <-.
        split; [exact H|]. intros p' f' H'. apply leads_inv in H'. destruct H' as (q & u & i & -> & R & N & Nm').
        destruct (lt_eq_lt_dec (length q) d) as [[Lt|Eq]|Gt].
        * exfalso. apply nth_error_In in N. exact (i_above _ _ _ _ I q u f' R Lt N Nm').
        * right. destruct (match_item _ _ _ _ _ _ _ _ I R Eq N Nm') as (q' & J & C).
          assert (Jy : In (1 <? count_of count u, q' ++ [i], f') (level_items types count cur)) by (apply (level_items_in count cur); exists u, q', i; auto).
          assert (Uniq : (1 <? count_of count u, q' ++ [i], f') = (m, p, f)).
          { rewrite E in Jy. apply in_app_or in Jy. destruct Jy as [Jy|[Jy|Jy]].
            - exfalso. exact (proj1 (matches_existsb a) Ea _ _ _ Jy Nm').
            - symmetry. exact Jy.
            - exfalso. exact (proj1 (matches_existsb b) Cb _ _ _ Jy Nm'). }
          injection Uniq as Em Ep _. rewrite Cm in Em. apply Nat.ltb_ge in Em. destruct C as [->|C]; [exact Ep|lia].
        * left. rewrite L, app_length. cbn. lia.
  Qed.
  Lemma field_by_name_func_answer : answers (field_by_name_func types t0 name).
  Proof.
    unfold field_by_name_func. apply (levels_answer _ 0); [apply inv_start|right|lia].
    assert (left_over [] <= length types); [|lia]. unfold left_over.
    assert (G : forall l : list nat, length (filter (fun v => negb (vis [] v)) l) = length l) by (induction l as [|x l IH]; cbn in *; [reflexivity|f_equal; exact IH]).
    rewrite (G (seq 0 (length types))), seq_length. reflexivity.
  Qed.
End Search.
