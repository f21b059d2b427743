(** Maps with keys that are not equal to themselves: proofs. *)
From Coq Require Import Permutation.
From Verif Require Import Base IterSpec Iter IterProofs SliceMem SliceMemProofs GoMap Funcs FuncsProofs2 Stream StreamProofs StreamProofs2 MapKeys MapKeysSpec.
Open Scope nat_scope.

Section Keys.
  Context {K V : Type} (eqb : K -> K -> bool) (P : per eqb).
  Notation put := (mset (V := V) eqb).
  Notation get := (mget (V := V) eqb).
  Notation del := (mdel (V := V) eqb).
  Notation ord := (ordinary eqb).
  Notation odds := (filter (fun e : K * V => negb (ord (fst e)))).

  Lemma eqb_sym a b : eqb a b = eqb b a.
  Proof. destruct P as (Sy & _). destruct (eqb a b) eqn:A, (eqb b a) eqn:B; auto; [rewrite (Sy _ _ A) in B|rewrite (Sy _ _ B) in A]; discriminate. Qed.
  Lemma eqb_ord a b : eqb a b = true -> ord a = true.
  Proof. intros H. destruct P as (Sy & Tr). apply (Tr a b a); auto. Qed.
  Lemma odd_eqb a b : ord a = false -> eqb a b = false.
  Proof. intros O. destruct (eqb a b) eqn:E; [apply eqb_ord in E; congruence|reflexivity]. Qed.
  Lemma odd_eqb_r a b : ord a = false -> eqb b a = false.
  Proof. intros O. rewrite eqb_sym. apply odd_eqb, O. Qed.

  Lemma get_odd m k : ord k = false -> get m k = None.
  Proof. intros O. induction m as [|[a b] m IH]; cbn; [reflexivity|]. rewrite odd_eqb; auto. Qed.
  Lemma put_odd m k v : ord k = false -> put m k v = m ++ [(k, v)].
  Proof. intros O. induction m as [|[a b] m IH]; cbn; [reflexivity|]. rewrite odd_eqb by exact O. rewrite IH. reflexivity. Qed.
  Lemma del_odd m k : ord k = false -> del m k = m.
  Proof. intros O. induction m as [|[a b] m IH]; cbn; [reflexivity|]. rewrite odd_eqb by exact O. rewrite IH. reflexivity. Qed.
  Lemma odds_put m k v : ord k = true -> odds (put m k v) = odds m.
  Proof.
    intros O. induction m as [|[a b] m IH]; cbn [mset filter fst]; [rewrite O; reflexivity|].
    destruct (eqb k a) eqn:E; cbn [filter fst].
    - rewrite (eqb_ord a k) by (rewrite eqb_sym; exact E). reflexivity.
    - rewrite IH. reflexivity.
  Qed.
  Lemma odds_del m k : odds (del m k) = odds m.
  Proof.
    induction m as [|[a b] m IH]; cbn [mdel filter fst]; [reflexivity|].
    destruct (eqb k a) eqn:E; cbn [filter fst]; [|rewrite IH; reflexivity]. rewrite (eqb_ord a k) by (rewrite eqb_sym; exact E). reflexivity.
  Qed.
  Lemma in_put m k v x y : In (x, y) (put m k v) -> (x = k \/ exists y', In (x, y') m).
  Proof.
    induction m as [|[a b] m IH]; cbn [mset]; [intros [E|[]]; left; congruence|].
    destruct (eqb k a); cbn [In]; intros [E|I].
    - right. exists b. left. congruence.
    - right. eauto.
    - right. exists b. left. congruence.
    - destruct (IH I) as [|(y' & I')]; eauto.
  Qed.
  Lemma in_del m k e : In e (del m k) -> In e m.
  Proof. induction m as [|[a b] m IH]; cbn [mdel]; [auto|]. destruct (eqb k a); cbn [In]; [auto|]. intros [|]; auto. Qed.

  Definition apart (a b : K * V) : Prop := eqb (fst a) (fst b) = false.
  Lemma apart_put m k v : ForallOrdPairs apart m -> ForallOrdPairs apart (put m k v).
  Proof.
    induction 1 as [|[a b] m F N IH]; cbn [mset]; [constructor; [constructor|constructor]|].
    destruct (eqb k a) eqn:E.
    - constructor; [exact F|exact N].
    - constructor; [|exact IH]. apply Forall_forall. intros [x y] I. unfold apart. cbn [fst]. apply in_put in I as [-> |(y' & I)]; [rewrite eqb_sym; exact E|].
      rewrite Forall_forall in F. exact (F _ I).
  Qed.
  Lemma apart_del m k : ForallOrdPairs apart m -> ForallOrdPairs apart (del m k).
  Proof.
    induction 1 as [|[a b] m F N IH]; cbn [mdel]; [constructor|].
    destruct (eqb k a); [exact N|]. constructor; [|exact IH]. apply Forall_forall. intros e I. rewrite Forall_forall in F. apply F. eapply in_del; eauto.
  Qed.
  Lemma get_in m k v : get m k = Some v -> exists k', eqb k k' = true /\ In (k', v) m.
  Proof. induction m as [|[a b] m IH]; cbn [mget]; [discriminate|]. destruct (eqb k a) eqn:E; [intros [= ->]; exists a; cbn; auto|]. intros G. destruct (IH G) as (k' & ? & ?). exists k'. cbn. auto. Qed.
  Lemma get_none_in m k k' v : get m k = None -> In (k', v) m -> eqb k k' = false.
  Proof. induction m as [|[a b] m IH]; cbn [mget In]; [tauto|]. destruct (eqb k a) eqn:E; [discriminate|]. intros G [[= -> ->]|I]; auto. Qed.
  Lemma in_get m k v : ForallOrdPairs apart m -> ord k = true -> In (k, v) m -> get m k = Some v.
  Proof.
    intros A O. induction A as [|[a b] m F N IH]; cbn [mget In]; [tauto|]. intros [[= -> ->]|I]; [unfold ordinary in O; rewrite O; reflexivity|].
    rewrite Forall_forall in F. pose proof (F _ I) as E. unfold apart in E. cbn [fst] in E. rewrite eqb_sym in E. rewrite E. auto.
  Qed.
  Lemma get_none m k : (forall k' v, In (k', v) m -> eqb k k' = false) -> get m k = None.
  Proof. intros H. induction m as [|[a b] m IH]; cbn [mget]; [reflexivity|]. rewrite (H a b) by (left; reflexivity). apply IH. intros k' v I. apply (H k' v). right. exact I. Qed.
  Lemma get_del m k k' : ForallOrdPairs apart m -> get (del m k) k' = if eqb k' k then None else get m k'.
  Proof.
    induction 1 as [|[a b] m F N IH]; cbn [mdel mget]; [destruct (eqb k' k); reflexivity|].
    destruct (eqb k a) eqn:E.
    - destruct (eqb k' k) eqn:E'.
      + apply get_none. intros x y I. rewrite (per_false eqb k' k x P E'). rewrite (per_false eqb k a x P E). rewrite Forall_forall in F. exact (F _ I).
      + rewrite eqb_sym in E'. rewrite (eqb_sym k' a). rewrite <- (per_false eqb k a k' P E), E'. reflexivity.
    - cbn [mget]. rewrite IH. destruct (eqb k' a) eqn:E'; [|reflexivity].
      destruct (eqb k' k) eqn:E2; [|reflexivity]. rewrite eqb_sym in E2. rewrite (per_false eqb k k' a P E2) in E. congruence.
  Qed.

  (** one step *)
  Definition after (m : list (K * V)) (o : mapop K V) : list (K * V) := match o with Put k v => put m k v | Del k => del m k end.
  Definition good (ops : list (mapop K V)) (m : list (K * V)) : Prop :=
    (forall k, get m k = latest eqb ops k) /\ ForallOrdPairs apart m /\ odds m = odd_puts eqb ops /\
    (forall k v, In (k, v) m -> exists v', In (Put k v') ops).
  Lemma odd_puts_app (a b : list (mapop K V)) : odd_puts eqb (a ++ b) = odd_puts eqb a ++ odd_puts eqb b.
  Proof. induction a as [|[k v|k] a IH]; cbn [odd_puts app]; [reflexivity| |exact IH]. destruct (ord k); [exact IH|]. cbn. rewrite IH. reflexivity. Qed.
  Lemma good_step ops m o : good ops m -> good (ops ++ [o]) (after m o).
  Proof.
    intros (G & A & O & I). destruct o as [k v|k]; cbn [after].
    - split; [|split; [apply apart_put, A|split]].
      + intros k'. rewrite mget_set_per by exact P. unfold latest. rewrite fold_left_app. cbn [fold_left done_to]. rewrite G. reflexivity.
      + rewrite odd_puts_app. cbn [odd_puts]. destruct (ord k) eqn:Ok; [rewrite odds_put by exact Ok; rewrite app_nil_r; exact O|].
        rewrite put_odd by exact Ok. rewrite filter_app. cbn [filter fst]. rewrite Ok. cbn [negb]. rewrite O. reflexivity.
      + intros x y J. apply in_put in J as [-> |(y' & J)]; [exists v; apply in_or_app; right; left; reflexivity|].
        destruct (I _ _ J) as (v' & J'). exists v'. apply in_or_app. auto.
    - split; [|split; [apply apart_del, A|split]].
      + intros k'. rewrite get_del by exact A. unfold latest. rewrite fold_left_app. cbn [fold_left done_to]. rewrite G. reflexivity.
      + rewrite odd_puts_app. cbn [odd_puts]. rewrite app_nil_r, odds_del. exact O.
      + intros x y J. apply in_del in J. destruct (I _ _ J) as (v' & J'). exists v'. apply in_or_app. auto.
  Qed.
  Lemma good_run ops : good ops (fold_left after ops []).
  Proof.
    induction ops as [|o ops IH] using rev_ind.
    - split; [|split; [constructor|split]]; [reflexivity|reflexivity|intros k v []].
    - rewrite fold_left_app. apply good_step, IH.
  Qed.
  Lemma good_entries ops m : good ops m -> entries_after eqb ops m.
  Proof.
    intros (G & A & O & I). split; [|split; [|split]].
    - intros k v J. split; [eauto|]. intros Ok. rewrite <- G. apply in_get; auto.
    - intros k v L. rewrite <- G in L. apply get_in, L.
    - exact A.
    - rewrite O. reflexivity.
  Qed.
End Keys.

Lemma pairs_perm {A} (R : A -> A -> Prop) (Sy : forall a b, R a b -> R b a) l l' : Permutation l l' -> ForallOrdPairs R l -> ForallOrdPairs R l'.
Proof.
  induction 1 as [|x l l' Pm IH|x y l|l1 l2 l3 P1 IH1 P2 IH2]; intros F; auto.
  - inversion F; subst. constructor; [|auto]. eapply Permutation_Forall; eauto.
  - inversion F as [|? ? F1 F2]; subst. inversion F2; subst. inversion F1; subst. constructor; [constructor; auto|]. constructor; auto.
Qed.
Lemma filter_perm {A} (f : A -> bool) l l' : Permutation l l' -> Permutation (filter f l) (filter f l').
Proof.
  induction 1 as [|x l l' Pm IH|x y l|l1 l2 l3 P1 IH1 P2 IH2]; cbn [filter]; auto.
  - destruct (f x); auto.
  - destruct (f x), (f y); auto. apply perm_swap.
  - etransitivity; eauto.
Qed.
Lemma filter_fst {K V} (f : K -> bool) (l : list (K * V)) : filter f (map fst l) = map fst (filter (fun e => f (fst e)) l).
Proof. induction l as [|e l IH]; [reflexivity|]. cbn. destruct (f (fst e)); cbn; rewrite IH; reflexivity. Qed.
Lemma pairs_fst {K V} (R : K -> K -> Prop) (l : list (K * V)) : ForallOrdPairs (fun a b => R (fst a) (fst b)) l -> ForallOrdPairs R (map fst l).
Proof. induction 1 as [|a l F N IH]; cbn; constructor; [|exact IH]. apply Forall_map. exact F. Qed.
Lemma odd_puts_map {K V} (eqb : K -> K -> bool) (v : V) (l : list K) : map fst (odd_puts eqb (map (fun k => Put k v) l)) = filter (fun k => negb (ordinary eqb k)) l.
Proof. induction l as [|k l IH]; [reflexivity|]. cbn. destruct (ordinary eqb k); cbn; rewrite IH; reflexivity. Qed.
Lemma latest_in {K V} (eqb : K -> K -> bool) (v : V) (l : list K) k : (exists k', In k' l /\ eqb k k' = true) -> latest eqb (map (fun k => Put k v) l) k = Some v.
Proof.
  unfold latest. intros E. induction l as [|x l IH] using rev_ind; [destruct E as (? & [] & _)|]. rewrite map_app, fold_left_app. cbn.
  destruct (eqb k x) eqn:X; [reflexivity|]. apply IH. destruct E as (k' & I & E). apply in_app_or in I as [I|[->|[]]]; [eauto|congruence].
Qed.

Lemma slice_to_map_puts {T K} (eqb : K -> K -> bool) (fn : T -> K) slc : forall res,
  slice_to_map_by eqb fn slc res = fold_left (after eqb) (map (fun v => Put (fn v) true) slc) res.
Proof. induction slc as [|v r IH]; intros res; [reflexivity|]. cbn. apply IH. Qed.
Lemma uniq_puts {K} (eqb : K -> K -> bool) slc : forall res,
  uniq_loop eqb slc res = fold_left (after eqb) (map (fun v => Put v 0) slc) res.
Proof. induction slc as [|v r IH]; intros res; [reflexivity|]. cbn. apply IH. Qed.
Lemma fold_puts {K V} (eqb : K -> K -> bool) (l : list (K * V)) : forall res,
  fold_left (fun m kv => mset eqb m (fst kv) (snd kv)) l res = fold_left (after eqb) (map (fun kv => Put (fst kv) (snd kv)) l) res.
Proof. induction l as [|v r IH]; intros res; [reflexivity|]. cbn. apply IH. Qed.

Section ToMap.
  Context {S K V : Type} `{Zero K} `{Zero V}.
  Lemma to_map_yields_any (eqb : K -> K -> bool) (nx : stepfn S (K * V)) s l : yields nx s l EOI ->
    yields (next (st_to_map eqb nx)) (ofIter (false, s)) [fold_left (fun m kv => mset eqb m (fst kv) (snd kv)) l []] EOI.
  Proof.
    intros Y. apply yields_fails in Y as (s1 & s2 & E & F).
    eapply one_shot with (st2 := (true, s2)).
    - destruct (pull_err nx (fun m kv => Done (inl (mset eqb m (fst kv) (snd kv))))
        (fun (m : list (K * V)) e => match e with EOI => (m, None) | _ => ([], Some e) end) _ _ _ _ _ _ _
        (foldl_feeds (fun m kv => mset eqb m (fst kv) (snd kv)) [] l) E F) as [n Q].
      exists n. intros m Hm. unfold st_to_map. rewrite Q by lia. reflexivity.
    - exists [], 0. reflexivity.
  Qed.
End ToMap.

(** ** Map2SliceAdd *)
Section Map2SliceAdd.
  Context {K1 K2 V : Type} {ZV : Zero V} (eqb1 : K1 -> K1 -> bool) (eqb2 : K2 -> K2 -> bool) (ex : nat -> nat -> nat).
  Lemma lookups_ordinary (P : per eqb1) s key1 key2 value : ordinary eqb1 key1 = true ->
    map2_slice_add_lookups eqb1 eqb2 ex s key1 key2 value = Done (map2_slice_add eqb1 eqb2 ex s key1 key2 value).
  Proof.
    intros O. unfold map2_slice_add_lookups, map2_slice_add. set (top := match top3 s with None => [] | Some e => e end).
    assert (X : inner_ref3 eqb1 s key1 = second eqb1 top key1) by (unfold inner_ref3, second, top; destruct (top3 s); reflexivity). rewrite X.
    destruct (second eqb1 top key1) as [r|] eqn:E.
    - unfold third, store_third. rewrite E. destruct (mget eqb2 (nth r (heap3 s) []) key2) as [[h|]|].
      + cbn [obind]. destruct (sappend ex (mem3 s) (Some h) [value]). reflexivity.
      + destruct (smake (mem3 s) 0 0) as [m1 s1]. cbn [obind]. destruct (sappend ex m1 s1 [value]). reflexivity.
      + destruct (smake (mem3 s) 0 0) as [m1 s1]. cbn [obind]. destruct (sappend ex m1 s1 [value]). reflexivity.
    - assert (Y : second eqb1 (mset eqb1 top key1 (Some (length (heap3 s)))) key1 = Some (length (heap3 s))).
      { unfold second. rewrite mget_set_per by exact P. unfold ordinary in O. rewrite O. reflexivity. }
      unfold third, store_third. rewrite Y. destruct (mget eqb2 (nth (length (heap3 s)) (heap3 s ++ [[]]) []) key2) as [[h|]|].
      + cbn [obind]. destruct (sappend ex (mem3 s) (Some h) [value]). reflexivity.
      + destruct (smake (mem3 s) 0 0) as [m1 s1]. cbn [obind]. destruct (sappend ex m1 s1 [value]). reflexivity.
      + destruct (smake (mem3 s) 0 0) as [m1 s1]. cbn [obind]. destruct (sappend ex m1 s1 [value]). reflexivity.
  Qed.
  Lemma lookups_odd (P : per eqb1) s key1 key2 value : ordinary eqb1 key1 = false ->
    map2_slice_add_lookups eqb1 eqb2 ex s key1 key2 value = Panicked.
  Proof.
    intros O. unfold map2_slice_add_lookups. set (top := match top3 s with None => [] | Some e => e end).
    assert (X : forall t : list (K1 * option nat), second eqb1 t key1 = None) by (intros t; unfold second; rewrite get_odd; auto).
    rewrite X. unfold third, store_third. rewrite !X. destruct (smake (mem3 s) 0 0) as [m1 s1]. reflexivity.
  Qed.
End Map2SliceAdd.

(** ** MapSliceAdd and Map2Set *)
Lemma smake_empty {T} {ZT : Zero T} (m : mem T) : smake m 0 0 = (m ++ [[]], Some (Hdr (length m) 0 0 0)).
Proof. reflexivity. Qed.
Section MapSlice.
  Context {K V : Type} {ZV : Zero V} (eqb : K -> K -> bool) (P : per eqb) (ex : nat -> nat -> nat).
  Lemma slice_add_odd (s : sts K V) key value : ordinary eqb key = false ->
    Forall (fun e => valid (mems s) (snd e)) (gmap_entries (tops s)) ->
    let s' := map_slice_add eqb ex s key value in
    exists s1 s2, gmap_entries (tops s') = gmap_entries (tops s) ++ [(key, s1); (key, s2)] /\
      contents (mems s') s1 = [] /\ contents (mems s') s2 = [value] /\
      (forall e, In e (gmap_entries (tops s)) -> contents (mems s') (snd e) = contents (mems s) (snd e)) /\
      forall k, map_slice_read eqb s' k = map_slice_read eqb s k.
  Proof.
    intros O V0. cbv zeta. unfold map_slice_add. fold (gmap_entries (tops s)). set (top := gmap_entries (tops s)) in *.
    rewrite get_odd by auto.
    pose proof (smake_spec (mems s) 0 0) as SM. destruct (smake (mems s) 0 0) as [m1 s1]. destruct SM as (Vs & Cs & F1 & _ & L1 & C1 & _).
    pose proof (sappend_spec ex m1 s1 [value] Vs) as SA. destruct (sappend ex m1 s1 [value]) as [m2 s2]. destruct SA as (V2 & C2 & _ & F2 & _).
    rewrite !put_odd by auto. cbn [tops mems gmap_entries]. exists s1, s2.
    assert (Fr : forall x : slice, valid (mems s) x -> contents m2 x = contents (mems s) x).
    { intros x Vx. rewrite (frame_contents _ _ _ x F2).
      - apply (frame_contents _ _ _ x F1 Vx). intros a i _ N. exact N.
      - eapply frame_valid; eauto.
      - intros a i Ci Si. destruct s1 as [h|]; [|contradiction]. cbn in Si, C1. lia. }
    split; [rewrite <- app_assoc; reflexivity|]. split; [|split; [rewrite C2, Cs; reflexivity|split]].
    - etransitivity; [|exact Cs]. apply (frame_contents _ _ _ s1 F2 Vs). intros a i Ci Si. destruct s1 as [h|]; [|contradiction]. cbn in Ci, L1. lia.
    - intros e I. apply Fr. rewrite Forall_forall in V0. apply V0, I.
    - intros k. unfold map_slice_read. cbn [tops mems gmap_entries]. fold top. rewrite <- !(put_odd eqb P) by auto. rewrite !mget_set_per by exact P.
      rewrite odd_eqb_r by auto. destruct (mget eqb top k) as [x|] eqn:G; [|reflexivity]. f_equal. apply Fr.
      apply get_in in G as (k' & _ & I). rewrite Forall_forall in V0. exact (V0 _ I).
  Qed.
End MapSlice.

Section Map2.
  Context {K1 K2 V : Type} (eqb1 : K1 -> K1 -> bool) (eqb2 : K2 -> K2 -> bool).
  Lemma map2_odd1 (P : per eqb1) (s : st2 K1 K2 V) key1 key2 value : ordinary eqb1 key1 = false ->
    Forall (fun e => match snd e with Some r => r < length (heap2 s) | None => True end) (gmap_entries (top2 s)) ->
    let s' := map2_set eqb1 eqb2 s key1 key2 value in
    gmap_entries (top2 s') = gmap_entries (top2 s) ++ [(key1, Some (length (heap2 s)))] /\ nth (length (heap2 s)) (heap2 s') [] = [(key2, value)] /\
    (forall k, map2_test eqb1 eqb2 s' key1 k = false) /\
    forall k k', map2_read eqb1 eqb2 s' k k' = map2_read eqb1 eqb2 s k k'.
  Proof.
    intros O W. cbv zeta. unfold map2_set.
    assert (X : forall s : st2 K1 K2 V, inner_ref eqb1 s key1 = None). { intros [h [e|]]; [|reflexivity]. unfold inner_ref. cbn [top2]. rewrite get_odd; auto. }
    rewrite X. fold (gmap_entries (top2 s)). cbn [top2 heap2 gmap_entries]. rewrite put_odd by auto. split; [reflexivity|].
    split; [rewrite app_nth2, Nat.sub_diag by lia; reflexivity|]. split; [intros k; unfold map2_test; rewrite X; reflexivity|].
    intros k k'. unfold map2_read, inner_ref. cbn [top2 heap2]. rewrite <- (put_odd eqb1 P) by auto. rewrite mget_set_per by exact P. rewrite odd_eqb_r by auto.
    assert (Y : mget eqb1 (gmap_entries (top2 s)) k = (match top2 s with None => None | Some e => mget eqb1 e k end)) by (destruct (top2 s); reflexivity).
    rewrite Y. destruct (top2 s) as [e|]; [|reflexivity]. destruct (mget eqb1 e k) as [[r|]|] eqn:G; try reflexivity.
    apply get_in in G as (k2 & _ & I). rewrite Forall_forall in W. pose proof (W _ I) as L. cbn in L. rewrite app_nth1 by exact L. reflexivity.
  Qed.
End Map2.
