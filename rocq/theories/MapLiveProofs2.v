(** Loops that write to the map they iterate over. *)
From Coq Require Import Permutation.
From Verif Require Import Base GoMap MapLive MapLiveSpec MapLiveProofs.
Open Scope go_scope.
Open Scope nat_scope.

Section Own.
  Context {K V : Type} {ZK : Zero K} {ZV : Zero V}.
  Variable eqb : K -> K -> bool.
  Hypothesis EQ : eq_decides eqb.
  Variables (nilK : K -> bool) (nilV : V -> bool).
  Variable pick : live K V -> option K.
  Hypothesis LEGAL : legal pick.
  Notation get := (mget (V := V) eqb).
  Variable g : K -> V -> option V.
  Variable m : list (K * V).
  Hypothesis MOK : mok m.
  Hypothesis NN : forall k v, In (k, v) m -> nilK k || nilV v = false.
  Let own (k : K) : option V := match get m k with Some v => g k v | None => None end.

  Lemma without_nodup k l : NoDup l -> NoDup (without eqb k l).
  Proof. apply NoDup_filter. Qed.
  Lemma without_perm k l : NoDup l -> In k l -> Permutation l (k :: without eqb k l).
  Proof.
    intros ND IN. apply NoDup_Permutation; auto.
    - constructor; [|apply without_nodup; auto]. rewrite in_without by exact EQ. tauto.
    - intros x. cbn. rewrite in_without by exact EQ. destruct (eqb_spec eqb EQ k x) as [->|N]; [tauto|]. split; [intros; right; auto|]. intros [->|[H _]]; auto.
  Qed.

  Lemma each_own : forall n s, length (must s) = n -> started s = true -> fin s = false -> may s = [] -> inv eqb s -> NoDup (must s) ->
    (forall k, In k (must s) -> get (ents s) k = get m k) -> (forall k, ~ In k (must s) -> get (ents s) k = own k) ->
    forall fuel, n < fuel -> exists l s2, each eqb nilK nilV pick (update_own eqb g) fuel s = Done (l, s2) /\ Permutation (map fst l) (must s) /\
      (forall k v, In (k, v) l -> get m k = Some v) /\ (forall k, get (ents s2) k = own k) /\ mok (ents s2).
  Proof.
    induction n as [n IH] using lt_wf_ind. intros s Ln ST NF MY I ND HM HO fuel Hf. destruct fuel as [|fuel]; [lia|]. cbn [each]. unfold map_live at 1. rewrite NF.
    assert (BG : begin_iter s = s) by (unfold begin_iter; rewrite ST; reflexivity). rewrite BG. pose proof (LEGAL s) as LG. destruct (pick s) as [k|].
    - rewrite MY, app_nil_r in LG. destruct I as [O I]. pose proof (I k) as IK. rewrite MY, app_nil_r in IK. destruct (get (ents s) k) as [v|] eqn:G; [|exfalso; exact (IK LG eq_refl)].
      pose proof (HM k LG) as GM. rewrite G in GM. symmetry in GM. assert (INM : In (k, v) m) by (apply (mget_in eqb EQ); auto). rewrite (NN k v INM). cbn [obind].
      set (s1 := mkLive (ents s) (without eqb k (must s)) (without eqb k (may s)) true false (calls s + 1)).
      assert (I1 : inv eqb s1). { split; auto. intros x Hx. apply I. unfold s1 in Hx. cbn [must may] in Hx. rewrite in_app_iff in *. rewrite !in_without in Hx by exact EQ. tauto. }
      assert (KN : ~ In k (must s1)) by (unfold s1; cbn [must]; rewrite in_without by exact EQ; tauto).
      assert (LT : length (must s1) < n) by (unfold s1; cbn [must]; rewrite <- Ln; apply (without_shorter eqb EQ); auto).
      set (s2 := update_own eqb g s1 (k, v)).
      assert (S2 : must s2 = must s1 /\ may s2 = [] /\ started s2 = true /\ fin s2 = false /\ inv eqb s2 /\ forall x, get (ents s2) x = if eqb x k then g k v else get (ents s) x).
      { unfold s2, update_own. cbn [fst snd]. destruct (g k v) as [v'|].
        - split; [reflexivity|]. split; [unfold do_set, s1; cbn [may started ents andb]; rewrite G, MY; reflexivity|]. split; [reflexivity|]. split; [reflexivity|]. split; [apply inv_set; auto|].
          intros x. cbn [do_set ents s1]. apply mget_set. exact EQ.
        - split.
          { unfold do_del. cbn [must]. unfold s1. cbn [must]. unfold without. clear. induction (must s) as [|x l IHl]; [reflexivity|]. cbn. destruct (eqb k x) eqn:E; cbn; auto. rewrite E. cbn. f_equal. exact IHl. }
          split; [unfold do_del, s1; cbn [may]; rewrite MY; reflexivity|]. split; [reflexivity|]. split; [reflexivity|]. split; [apply inv_del; auto|].
          intros x. cbn [do_del ents s1]. apply mget_del; auto. }
      destruct S2 as (M2 & Y2 & T2 & F2 & I2 & G2).
      destruct (IH (length (must s1)) LT s2) with (fuel := fuel) as (l & s3 & E3 & P3 & V3 & O3 & K3); auto; try lia.
      + rewrite M2. reflexivity.
      + rewrite M2. unfold s1. cbn [must]. apply without_nodup. exact ND.
      + intros x. rewrite M2. intros Hx. rewrite G2. destruct (eqb_spec eqb EQ x k) as [->|N]; [contradiction|]. apply HM. unfold s1 in Hx. cbn [must] in Hx. rewrite in_without in Hx by exact EQ. tauto.
      + intros x. rewrite M2. intros Hx. rewrite G2. destruct (eqb_spec eqb EQ x k) as [->|N]; [unfold own; rewrite GM; reflexivity|]. apply HO. intros Y. apply Hx. unfold s1. cbn [must]. rewrite in_without by exact EQ. auto.
      + rewrite E3. cbn [obind]. exists ((k, v) :: l), s3. split; auto. split; [|split; [|auto]].
        * cbn [map fst]. rewrite (without_perm k (must s) ND LG). constructor. rewrite M2 in P3. exact P3.
        * intros x y [X|X]; [congruence|auto].
    - cbn [obind]. exists [], (mkLive (ents s) (must s) (may s) true true (calls s + 1)). split; auto. rewrite LG in *. split; [constructor|]. split; [intros ? ? []|]. cbn [ents]. split; [intros k; apply HO; auto|]. exact (proj1 I).
  Qed.

  Lemma each_fresh act fuel : each eqb nilK nilV pick act fuel (fresh m) = each eqb nilK nilV pick act fuel (begin_iter (fresh m)).
  Proof. destruct fuel; reflexivity. Qed.

  Theorem own_done : exists l s2, (forall fuel, length m < fuel -> each eqb nilK nilV pick (update_own eqb g) fuel (fresh m) = Done (l, s2)) /\
    Permutation l m /\ mok (ents s2) /\ forall k, get (ents s2) k = own k.
  Proof.
    assert (A : forall fuel, length m < fuel -> exists l s2, each eqb nilK nilV pick (update_own eqb g) fuel (fresh m) = Done (l, s2) /\ Permutation (map fst l) (map fst m) /\
      (forall k v, In (k, v) l -> get m k = Some v) /\ (forall k, get (ents s2) k = own k) /\ mok (ents s2)).
    { intros fuel Hf. rewrite each_fresh. apply (each_own (length (map fst m)) (begin_iter (fresh m))); auto.
      - apply (inv_begin eqb EQ). apply inv_fresh. exact MOK.
      - intros k Hk. cbn [begin_iter fresh started ents must] in *. unfold own. destruct (get m k) eqn:E; auto. exfalso. apply Hk. apply (mget_in eqb EQ) in E; auto. apply (in_map fst) in E. exact E.
      - rewrite map_length. exact Hf. }
    assert (MONO : forall fuel s l s2, each eqb nilK nilV pick (update_own eqb g) fuel s = Done (l, s2) -> forall f2, fuel <= f2 -> each eqb nilK nilV pick (update_own eqb g) f2 s = Done (l, s2)).
    { clear. induction fuel as [|fuel IH]; intros s l s2 H f2 Hf; [discriminate|]. destruct f2 as [|f2]; [lia|]. cbn [each] in *. destruct (map_live eqb nilK nilV pick s) as [[[kv [e|]] s1]| |]; cbn [obind] in *; auto.
      destruct (each eqb nilK nilV pick (update_own eqb g) fuel (update_own eqb g s1 kv)) as [[l' s']| |] eqn:E; cbn [obind] in H; try discriminate. rewrite (IH _ _ _ E f2 ltac:(lia)). cbn [obind]. exact H. }
    destruct (A (Datatypes.S (length m)) ltac:(lia)) as (l & s2 & E & P & VV & O & K2). exists l, s2. split; [intros fuel Hf; apply (MONO _ _ _ _ E); lia|]. split; auto.
    assert (NL : NoDup (map fst l)) by (apply (Permutation_NoDup (Permutation_sym P)); exact MOK).
    apply NoDup_Permutation; [exact (mok_nodup l NL)|exact (mok_nodup m MOK)|]. intros [k v]. split.
    - intros H. apply (mget_in eqb EQ); auto.
    - intros H. assert (KL : In k (map fst l)) by (rewrite P; apply (in_map fst) in H; exact H). apply in_map_iff in KL. destruct KL as ([k' v'] & X & IN). cbn in X. subst k'.
      pose proof (VV _ _ IN) as Y. apply (mget_in eqb EQ) in H; auto. congruence.
  Qed.

  (** the loop with OfMapWriter(m) *)
  Lemma write_own (h : K * V -> K * V) : (forall kv, fst (h kv) = fst kv) -> (forall k v, g k v = Some (snd (h (k, v)))) ->
    forall fuel s, each eqb nilK nilV pick (write_to eqb h) fuel s = each eqb nilK nilV pick (update_own eqb g) fuel s.
  Proof.
    intros H1 H2. induction fuel as [|fuel IH]; intros s; [reflexivity|]. cbn [each]. destruct (map_live eqb nilK nilV pick s) as [[[kv [e|]] s1]| |]; cbn [obind]; auto.
    assert (X : write_to eqb h s1 kv = update_own eqb g s1 kv). { destruct kv as [k v]. unfold write_to, update_own. cbn [fst snd]. rewrite H2. specialize (H1 (k, v)). destruct (h (k, v)) as [k' v']. cbn in *. subst. reflexivity. }
    rewrite X, IH. reflexivity.
  Qed.
End Own.

(** ** Every order is possible *)
Section Order.
  Context {K V : Type} {ZK : Zero K} {ZV : Zero V}.
  Variable eqb : K -> K -> bool.
  Hypothesis EQ : eq_decides eqb.
  Definition in_order (order : list K) (s : live K V) : option K :=
    match filter (fun k => existsb (eqb k) (must s)) order with k :: _ => Some k | [] => hd_error (must s) end.
  Lemma in_order_legal order : legal (in_order order).
  Proof.
    intros s. unfold in_order. destruct (filter _ order) as [|k l] eqn:E.
    - destruct (must s); cbn; auto.
    - assert (H : In k (k :: l)) by (left; reflexivity). rewrite <- E in H. apply filter_In in H. destruct H as [_ H]. apply existsb_exists in H. destruct H as (x & IN & X). apply EQ in X. subst x. apply in_app_iff. auto.
  Qed.

  Variables (nilK : K -> bool) (nilV : V -> bool) (m : list (K * V)).
  Hypothesis MOK : mok m.
  Hypothesis NN : forall k v, In (k, v) m -> nilK k || nilV v = false.
  Lemma order_from order : NoDup order -> forall rest pre s fuel, order = pre ++ rest -> started s = true -> fin s = false -> may s = [] -> ents s = m -> (forall k, In k (must s) <-> In k rest) ->
    (forall k, In k rest -> In k (map fst m)) -> length rest < fuel ->
    exists l s2, each eqb nilK nilV (in_order order) (fun s _ => s) fuel s = Done (l, s2) /\ map fst l = rest /\ forall kv, In kv l -> In kv m.
  Proof.
    intros ND. induction rest as [|k rest IH]; intros pre s fuel EO ST NF MY EM HM HR Hf; (destruct fuel as [|fuel]; [cbn in Hf; lia|]); cbn [each]; unfold map_live; rewrite NF;
      assert (BG : begin_iter s = s) by (unfold begin_iter; rewrite ST; reflexivity); rewrite BG; unfold in_order at 1.
    - assert (MN : must s = []) by (destruct (must s) as [|x q]; auto; exfalso; apply (HM x); left; reflexivity). rewrite MN.
      assert (FN : filter (fun k => existsb (eqb k) []) order = []) by (clear; induction order; cbn; auto). rewrite FN. cbn [hd_error obind]. exists [], (mkLive (ents s) [] (may s) true true (calls s + 1)). split; [rewrite ?MN; reflexivity|]. split; auto. intros ? [].
    - assert (FO : exists q, filter (fun k => existsb (eqb k) (must s)) order = k :: q).
      { rewrite EO, filter_app. assert (FP : filter (fun k => existsb (eqb k) (must s)) pre = []).
        { assert (D : forall x, In x pre -> ~ In x (k :: rest)). { intros x H1 H2. rewrite EO in ND. revert ND H1. clear -H2. induction pre as [|y pre IH]; [intros _ []|]. cbn. intros ND [->|H1]; inversion ND as [|? ? N1 N2]; subst; [apply N1; apply in_app_iff; auto|auto]. }
          clear -D HM EQ. induction pre as [|y pre IH]; [reflexivity|]. cbn. destruct (existsb (eqb y) (must s)) eqn:E.
          - apply existsb_exists in E. destruct E as (x & I1 & X). apply EQ in X. subst x. exfalso. apply (D y); [left; reflexivity|]. apply HM. exact I1.
          - apply IH. intros x H. apply D. right. exact H. }
        rewrite FP. cbn [app filter]. assert (E : existsb (eqb k) (must s) = true) by (apply existsb_exists; exists k; split; [apply HM; left; reflexivity|apply EQ; reflexivity]). rewrite E. eauto. }
      destruct FO as [q FO]. rewrite FO. rewrite EM. assert (IM : In k (map fst m)) by (apply HR; left; reflexivity). destruct (mget eqb m k) as [v|] eqn:G; [|apply mget_none in G; [contradiction|exact EQ]].
      assert (INM : In (k, v) m) by (apply (mget_in eqb EQ); auto). rewrite (NN k v INM). cbn [obind].
      assert (NK : ~ In k rest). { rewrite EO in ND. apply NoDup_remove_2 in ND. intros X. apply ND. apply in_app_iff. auto. }
      destruct (IH (pre ++ [k]) (mkLive m (without eqb k (must s)) (without eqb k (may s)) true false (calls s + 1)) fuel) as (l & s2 & E & ML & VL).
      + rewrite <- app_assoc. exact EO.
      + reflexivity.
      + reflexivity.
      + cbn [may]. rewrite MY. reflexivity.
      + reflexivity.
      + intros x. cbn [must]. rewrite (in_without eqb EQ), HM. cbn. split; [intros [[->|H] N]; [contradiction|auto]|]. intros H. split; auto. intros ->. contradiction.
      + intros x H. apply HR. right. exact H.
      + cbn in Hf. lia.
      + cbn [must may calls] in *. rewrite E. exists ((k, v) :: l), s2. split; auto. split; [cbn; rewrite ML; reflexivity|]. intros kv [<-|H]; auto.
  Qed.
  Theorem any_order order : Permutation order (map fst m) ->
    exists l s2, each eqb nilK nilV (in_order order) (fun s _ => s) (S (length order)) (fresh m) = Done (l, s2) /\ map fst l = order /\ forall kv, In kv l -> In kv m.
  Proof.
    intros P. assert (ND : NoDup order) by (apply (Permutation_NoDup (Permutation_sym P)); exact MOK).
    destruct (order_from order ND order [] (begin_iter (fresh m)) (S (length order)) eq_refl eq_refl eq_refl eq_refl eq_refl) as (l & s2 & E & R); [|intros k Hk; rewrite <- P; exact Hk|lia|].
    - intros k. cbn [begin_iter fresh started must ents]. rewrite P. tauto.
    - exists l, s2. split; auto.
  Qed.
End Order.

(** ** Writes under other keys *)
Section Grow.
  Context {V : Type} {ZV : Zero V}.
  Let ZK : Zero nat := 0.
  Definition newest (s : live nat V) : option nat := match may s with k :: _ => Some k | [] => hd_error (must s) end.
  Definition oldest (s : live nat V) : option nat := hd_error (must s).
  Lemma newest_legal : legal newest.
  Proof. intros s. unfold newest. destruct (may s) as [|k l]; [|apply in_app_iff; right; left; reflexivity]. destruct (must s); cbn; auto. Qed.
  Lemma oldest_legal : legal oldest.
  Proof. intros s. unfold oldest. destruct (must s); cbn; auto. Qed.
  Notation loop := (each (ZK := ZK) (ZV := ZV) Nat.eqb (fun _ => false) (fun _ => false)).

  Lemma nat_eq : eq_decides Nat.eqb.
  Proof. intros a b. apply Nat.eqb_eq. Qed.
  Lemma grows : forall fuel s k v, started s = true -> fin s = false -> must s = [] -> may s = [k] -> mget Nat.eqb (ents s) k = Some v -> (forall j, k < j -> mget Nat.eqb (ents s) j = None) ->
    loop newest (write_to Nat.eqb next_key) fuel s = OutOfFuel.
  Proof.
    induction fuel as [|fuel IH]; intros s k v ST NF MU MY G AB; [reflexivity|]. cbn [each]. unfold map_live. rewrite NF. unfold begin_iter. rewrite ST. unfold newest. rewrite MY, G. cbn [orb obind].
    rewrite (IH _ (S k) v); auto; unfold write_to, next_key, do_set; cbn [fst snd ents must may started fin andb].
    - rewrite MU. reflexivity.
    - rewrite (AB (S k)) by lia. cbn. rewrite Nat.eqb_refl. reflexivity.
    - rewrite (mget_set _ nat_eq), Nat.eqb_refl. reflexivity.
    - intros j Hj. rewrite (mget_set _ nat_eq). destruct (Nat.eqb_spec j (S k)); [lia|]. apply AB. lia.
  Qed.
  Theorem grows_for_ever v fuel : loop newest (write_to Nat.eqb next_key) fuel (fresh [(0, v)]) = OutOfFuel.
  Proof.
    destruct fuel as [|fuel]; [reflexivity|]. cbn. rewrite (grows fuel _ 1 v); auto.
    intros j Hj. cbn. destruct j as [|[|j]]; [lia|lia|reflexivity].
  Qed.
  Theorem stops_at_once v fuel : 2 <= fuel -> exists s, loop oldest (write_to Nat.eqb next_key) fuel (fresh [(0, v)]) = Done ([(0, v)], s) /\ ents s = [(0, v); (1, v)].
  Proof. intros H. destruct fuel as [|[|fuel]]; try lia. cbn. eexists. split; reflexivity. Qed.
End Grow.
