(** C106: pipelines of stream transforms mean the composition of list transformations and read no more of the source
    than they need.  The source is iter.OfIter(f) for any function [f] with captured variables [s]. *)
From Coq Require Import Permutation.
From Verif Require Import Base GoMap Iter IterSpec IterProofs Stream StreamSpec StreamProofs StreamProofs2 Pipe PipeSpec PipeProofs.

Section C106.
  Context {S0 A B : Type} (za : Zero A) (p : pipe A B) (f : stepfn S0 A) (s : S0) (tr : trace A).
  Hypothesis G : gives f s tr.
  Let it := apply_pipe p (source za f s).
  Let out := meaning p tr.

  (** The values a pipeline returns are those of the composed list transformations; then it returns the zero value and
      the error for ever.  The source may be infinite: then [tr] is any prefix of it. *)
  Theorem C106_values :
    exists st, emits (it_next it) (it_init it) (fst out) st /\
      forall e, snd out = Some e -> stuck (H := pipe_zero p za) (it_next it) st e.
  Proof.
    destruct (pipe_reads p f s tr (source za f s) tr (fun k => k) (source_reads za f s tr G)) as [(st & E & F) _].
    exists st. split; [exact E|]. intros e He. destruct (F e He) as [st' F'].
    destruct (pipe_settled p za f s _ _ _ _ E F') as [R R']. econstructor; [exact R|].
    apply stuck_fixed. exact R'.
  Qed.

  (** Building the pipeline calls nothing, and to answer its first [k] calls it calls the source function exactly
      [demand p tr k] times: it is left in the state those calls lead to. *)
  Theorem C106_demand (k : nat) : covers out k ->
    exists st, pulls (it_next it) (it_init it) out k st /\ pulls f s tr (demand p tr k) (it_source it st).
  Proof.
    exact (proj2 (pipe_reads p f s tr (source za f s) tr (fun k => k) (source_reads za f s tr G)) k).
  Qed.

  Theorem C106_construction : it_source it (it_init it) = s.
  Proof.
    destruct (C106_demand 0) as (st & P & Q); [left; lia|]. inversion P; subst.
    rewrite demand_0 in Q. inversion Q. reflexivity.
  Qed.

  (** Once it has returned an error, further calls change nothing: the source is not called again. *)
  Theorem C106_after_end (e : err) : snd out = Some e ->
    exists st, pulls (it_next it) (it_init it) out (Datatypes.S (length (fst out))) st /\
      returns (it_next it) st (@zv _ (pipe_zero p za), Some e) st.
  Proof.
    intros He. destruct (C106_demand (Datatypes.S (length (fst out)))) as (st & P & _).
    { right. split; [reflexivity|congruence]. }
    exists st. split; [exact P|]. destruct out as [l o] eqn:Eo. cbn in He. subst o.
    destruct (pulls_split _ _ _ _ _ P) as (s1 & E & F). exact (proj2 (pipe_settled p za f s _ _ _ _ E F)).
  Qed.
End C106.

(** Two pipelines with the same meaning on what is known of the source cannot be told apart by calling Next. *)
Theorem C106_same_meaning {S0 A B : Type} (za : Zero A) (p q : pipe A B) (f : stepfn S0 A) (s : S0) (l : list A) (e : err) :
  gives f s (l, Some e) -> meaning p (l, Some e) = meaning q (l, Some e) -> pipe_zero p za = pipe_zero q za ->
  forall l' e', 
    yields (H := pipe_zero p za) (it_next (apply_pipe p (source za f s))) (it_init (apply_pipe p (source za f s))) l' e' <->
    yields (H := pipe_zero q za) (it_next (apply_pipe q (source za f s))) (it_init (apply_pipe q (source za f s))) l' e'.
Proof.
  intros G M Z.
  assert (K : forall r : pipe A B, exists e0, snd (meaning r (l, Some e)) = Some e0).
  { intros r. exact (meaning_ends r (l, Some e) e eq_refl). }
  assert (Y : forall r : pipe A B, exists e0, snd (meaning r (l, Some e)) = Some e0 /\
    yields (H := pipe_zero r za) (it_next (apply_pipe r (source za f s))) (it_init (apply_pipe r (source za f s)))
      (fst (meaning r (l, Some e))) e0).
  { intros r. destruct (K r) as [e0 E0]. exists e0. split; [exact E0|].
    destruct (C106_values za r f s (l, Some e) G) as (st & E & St). exists st. split; [exact E|exact (St e0 E0)]. }
  intros l' e'. destruct (Y p) as (e1 & H1 & Y1). destruct (Y q) as (e2 & H2 & Y2). rewrite M in H1, Y1.
  assert (e1 = e2) by congruence. subst e2. rewrite Z in *. split; intros Yx.
  - destruct (yields_det (H := pipe_zero q za) _ _ _ _ _ _ Y1 Yx) as [<- <-]. exact Y2.
  - destruct (yields_det (H := pipe_zero q za) _ _ _ _ _ _ Y2 Yx) as [<- <-]. exact Y1.
Qed.

(** Laws a user relies on when rewriting a pipeline: same values, same end, same number of calls on the source. *)
Section Laws.
  Context {A B C : Type} (za : Zero A) (zb : Zero B) (zc : Zero C).
  Local Notation Map z f := (SMap z (pure_map f) tt).
  Local Notation Filter z q := (SFilter z (pure_map q) tt).

  Theorem C106_map_map (f : A -> B) (g : B -> C) tr :
    meaning (PThen (Map zb f) (PThen (Map zc g) PEnd)) tr = meaning (PThen (Map zc (fun x => g (f x))) PEnd) tr /\
    forall k, demand (PThen (Map zb f) (PThen (Map zc g) PEnd)) tr k = demand (PThen (Map zc (fun x => g (f x))) PEnd) tr k.
  Proof. split; [|reflexivity]. cbn. rewrite !map_acc_pure. cbn. rewrite map_map. reflexivity. Qed.

  Theorem C106_filter_filter (q r : A -> bool) tr :
    meaning (PThen (Filter za q) (PThen (Filter za r) PEnd)) tr = meaning (PThen (Filter za (fun x => q x && r x)) PEnd) tr /\
    forall k, demand (PThen (Filter za q) (PThen (Filter za r) PEnd)) tr k = demand (PThen (Filter za (fun x => q x && r x)) PEnd) tr k.
  Proof.
    split; [|intros k; destruct tr as [l o]; cbn; rewrite filter_acc_pure; apply filter_demand_and].
    destruct tr as [l o]. cbn. rewrite !filter_acc_pure. cbn. f_equal.
    induction l as [|x l IH]; [reflexivity|]. cbn. destruct (q x); cbn; [destruct (r x); cbn; rewrite IH; reflexivity|exact IH].
  Qed.

  Theorem C106_map_limit (f : A -> B) n tr :
    meaning (PThen (Map zb f) (PThen (SLimit zb n) PEnd)) tr = meaning (PThen (SLimit za n) (PThen (Map zb f) PEnd)) tr /\
    forall k, demand (PThen (Map zb f) (PThen (SLimit zb n) PEnd)) tr k = demand (PThen (SLimit za n) (PThen (Map zb f) PEnd)) tr k.
  Proof.
    split; [|reflexivity]. destruct tr as [l o]. cbn. rewrite !map_acc_pure. cbn. rewrite map_length.
    destruct (n <=? length l); cbn; rewrite ?map_acc_pure; cbn; rewrite ?firstn_map; reflexivity.
  Qed.

  Theorem C106_skip_skip m n tr :
    meaning (PThen (SSkip za m) (PThen (SSkip za n) PEnd)) tr = meaning (PThen (SSkip za (m + n)) PEnd) tr /\
    forall k, demand (PThen (SSkip za m) (PThen (SSkip za n) PEnd)) tr k = demand (PThen (SSkip za (m + n)) PEnd) tr k.
  Proof.
    split; [|intros k; destruct tr as [l o]; cbn -[Nat.min]; rewrite skipn_length; destruct k; [reflexivity|];
             destruct (Nat.min (n + Datatypes.S k) (Datatypes.S (length l - m))) eqn:E; lia].
    destruct tr as [l o]. cbn. f_equal. revert l. induction m as [|m IH]; intros l; [reflexivity|].
    destruct l as [|x l]; [cbn; apply skipn_nil|apply IH].
  Qed.

  Theorem C106_limit_limit m n tr :
    meaning (PThen (SLimit za m) (PThen (SLimit za n) PEnd)) tr = meaning (PThen (SLimit za (Nat.min m n)) PEnd) tr /\
    forall k, demand (PThen (SLimit za m) (PThen (SLimit za n) PEnd)) tr k = demand (PThen (SLimit za (Nat.min m n)) PEnd) tr k.
  Proof.
    split; [|intros k; cbn; lia]. destruct tr as [l o]. cbn.
    destruct (Nat.leb_spec m (length l)) as [H1 | H1]; destruct (Nat.leb_spec (Nat.min m n) (length l)) as [H2 | H2]; try lia; cbn.
    - rewrite firstn_length. destruct (Nat.leb_spec n (Nat.min m (length l))) as [H3 | H3].
      + rewrite firstn_firstn. f_equal. f_equal. lia.
      + f_equal. f_equal. lia.
    - destruct (Nat.leb_spec n (length l)) as [H3 | H3]; [|lia]. f_equal. f_equal. lia.
    - destruct (Nat.leb_spec n (length l)) as [H3 | H3]; [lia|reflexivity].
  Qed.

  (** Skip then Limit is Limit then Skip, except for Limit 0 behind a Skip that is never made. *)
  Theorem C106_skip_limit m n tr : 0 < n ->
    meaning (PThen (SSkip za m) (PThen (SLimit za n) PEnd)) tr = meaning (PThen (SLimit za (m + n)) (PThen (SSkip za m) PEnd)) tr /\
    forall k, demand (PThen (SSkip za m) (PThen (SLimit za n) PEnd)) tr k = demand (PThen (SLimit za (m + n)) (PThen (SSkip za m) PEnd)) tr k.
  Proof.
    intros Hn. split.
    2: { intros k. destruct tr as [l o]. cbn -[Nat.min]. destruct k as [|k]; [reflexivity|].
         destruct (Nat.min (Datatypes.S k) n) as [|j] eqn:Ej; [lia|].
         destruct (Nat.leb_spec (m + n) (length l)) as [H2 | H2]; cbn -[Nat.min]; rewrite ?firstn_length; lia. }
    destruct tr as [l o]. cbn. rewrite skipn_length.
    destruct (Nat.leb_spec n (length l - m)) as [H1 | H1]; destruct (Nat.leb_spec (m + n) (length l)) as [H2 | H2]; try lia; cbn;
      [|reflexivity].
    f_equal. rewrite firstn_skipn_comm. reflexivity.
  Qed.

  (** Collecting into a slice and expanding it again changes no value. *)
  Theorem C106_slice_expand (l : list A) :
    meaning (PThen SToSlice (PThen (SExpand za) PEnd)) (l, Some EOI) = (l, Some EOI).
  Proof. cbn. rewrite app_nil_r. reflexivity. Qed.
End Laws.

(** *** Maps.  The runtime chooses an order for each map an ExpandMaps stage meets; [ord] is its choice, which may depend on all
    it has met before.  Keys are compared with [eqb]. *)
Section Maps.
  Context {K V Ch : Type} (zk : Zero K) (zv' : Zero V) (eqb : K -> K -> bool) (Eq : eq_decides eqb).
  Variables (ord : Ch -> list (K * V) -> list (K * V) * Ch) (c0 : Ch).
  Hypothesis Ord : forall c m, Permutation m (fst (ord c m)).
  Local Notation Expand := (fun p => PThen (SMap (Zero_list (K * V)) ord c0) (PThen (SExpandMaps zk zv') p)).

  Lemma ordered l : forall c, Forall2 (@Permutation (K * V)) l (fst (map_acc ord c l)).
  Proof.
    induction l as [|m l IH]; intros c; cbn; [constructor|]. pose proof (Ord c m) as H. destruct (ord c m) as [m' c1]. specialize (IH c1).
    destruct (map_acc ord c1 l) as [ms c2]. constructor; assumption.
  Qed.

  (** ReduceToMap gives one map: each key has the last value it occurred with, and no other key is there. *)
  Theorem C106_to_map (l : list (K * V)) : exists m,
    meaning (PThen (SToMap zk zv' eqb) PEnd) (l, Some EOI) = ([m], Some EOI) /\ NoDup (map fst m) /\ forall k, mget eqb m k = last_value eqb l k.
  Proof.
    cbn. eexists. split; [reflexivity|]. destruct (to_map_fold eqb Eq l [] (NoDup_nil _)) as [A B]. split; [exact A|].
    intros k. rewrite B. destruct (last_value eqb l k); reflexivity.
  Qed.

  (** ExpandMaps gives the entries of the maps, map after map, those of one map in any order; how much it reads does not
      depend on the orders. *)
  Theorem C106_expand_maps (ms : list (list (K * V))) o : exists ms',
    meaning (Expand PEnd) (ms, o) = (concat ms', o) /\ Forall2 (@Permutation (K * V)) ms ms' /\
    forall k, demand (Expand PEnd) (ms, o) k = expand_demand ms k.
  Proof.
    cbn. eexists. split; [reflexivity|]. split; [apply ordered|]. generalize c0. induction ms as [|m l IH]; intros c k; cbn; [reflexivity|].
    pose proof (Ord c m) as H. destruct (ord c m) as [m' c1]. specialize (IH c1). destruct (map_acc ord c1 l) as [ms1 c2]. cbn in *.
    rewrite <- (Permutation_length H). destruct k; [reflexivity|]. destruct (_ <=? _); [reflexivity|]. rewrite IH. reflexivity.
  Qed.

  (** ReduceToMap then ExpandMaps leaves one pair for each key, the last one. *)
  Theorem C106_map_expand (l : list (K * V)) : exists l',
    meaning (PThen (SToMap zk zv' eqb) (Expand PEnd)) (l, Some EOI) = (l', Some EOI) /\
    NoDup (map fst l') /\ forall k v, In (k, v) l' <-> last_value eqb l k = Some v.
  Proof.
    destruct (C106_to_map l) as (m & E & N & G). destruct (C106_expand_maps [m] (Some EOI)) as (ms' & E2 & F & _).
    inversion F as [|? m' ? ? Pm F2]; subst. inversion F2; subst.
    exists m'. split; [|split].
    - cbn [concat] in E2. rewrite app_nil_r in E2. rewrite <- E2. cbn in E |- *. injection E as E. rewrite E. reflexivity.
    - eapply Permutation_NoDup; [|exact N]. apply Permutation_map. exact Pm.
    - intros k v. rewrite <- G, <- (mget_in eqb Eq m k v N).
      split; apply Permutation_in; [apply Permutation_sym|]; exact Pm.
  Qed.
End Maps.

(** The last value wins, the answer is one map, and a source that fails gives its error; an order that turns every second map
    around. *)
Theorem C106_ex_maps :
  let turn c (m : list (nat * nat)) := (if c : bool then rev m else m, negb c) in
  (forall c m, Permutation m (fst (turn c m))) /\
  meaning (PThen (SToMap Zero_nat Zero_nat Nat.eqb) PEnd) ([(1, 10); (2, 20); (1, 30)], Some EOI) = ([[(1, 30); (2, 20)]], Some EOI) /\
  meaning (PThen (SToMap Zero_nat Zero_nat Nat.eqb) PEnd) ([], Some EOI) = ([[]], Some EOI) /\
  meaning (PThen (SToMap Zero_nat Zero_nat Nat.eqb) PEnd) ([(1, 10)], Some (UserErr 7)) = ([], Some (UserErr 7)) /\
  meaning (PThen (SMap (Zero_list _) turn true) (PThen (SExpandMaps Zero_nat Zero_nat) (PThen (SLimit (Zero_prod _ _ _ _) 4) PEnd)))
    ([[(1, 10); (2, 20)]; []; [(3, 30); (4, 40)]], None) = ([(2, 20); (1, 10); (4, 40); (3, 30)], Some EOI) /\
  demand (PThen (SMap (Zero_list _) turn true) (PThen (SExpandMaps Zero_nat Zero_nat) (PThen (SLimit (Zero_prod _ _ _ _) 4) PEnd)))
    ([[(1, 10); (2, 20)]; []; [(3, 30); (4, 40)]], None) 5 = 3.
Proof.
  cbv zeta. split; [|repeat split]. intros [|] m; [apply Permutation_rev|reflexivity].
Qed.

(** *** A concrete case: an infinite source *)
Definition naturals : stepfn nat nat := fun _ n => Done ((n, None), Datatypes.S n).

Definition example_pipe : pipe nat (list nat) :=
  PThen (SMap Zero_nat (pure_map Datatypes.S) tt)
  (PThen (SFilter Zero_nat (pure_map Nat.even) tt)
  (PThen (SSkip Zero_nat 1)
  (PThen (SLimit Zero_nat 2)
  (PThen SToSlice PEnd)))).

Lemma naturals_give n m : gives naturals n (seq n m, None).
Proof.
  exists (n + m). split; [|discriminate]. cbn. revert n. induction m as [|m IH]; intros n.
  - rewrite Nat.add_0_r. constructor.
  - cbn. econstructor; [exists 0; reflexivity|]. replace (n + Datatypes.S m) with (Datatypes.S n + m) by lia. apply IH.
Qed.

(** The pipeline over 0, 1, 2, ... returns [4;6] after exactly six calls of the source function, and then EOI. *)
Theorem C106_ex :
  gives naturals 0 (seq 0 10, None) /\
  meaning example_pipe (seq 0 10, None) = ([[4; 6]], Some EOI) /\
  demand example_pipe (seq 0 10, None) 1 = 6 /\ demand example_pipe (seq 0 10, None) 2 = 6 /\
  exists st, pulls naturals 0 (seq 0 10, None) 6 (it_source (apply_pipe example_pipe (source Zero_nat naturals 0)) st) /\
    pulls (it_next (apply_pipe example_pipe (source Zero_nat naturals 0)))
      (it_init (apply_pipe example_pipe (source Zero_nat naturals 0))) ([[4; 6]], Some EOI) 2 st.
Proof.
  split; [apply naturals_give|]. split; [reflexivity|]. split; [reflexivity|]. split; [reflexivity|].
  destruct (C106_demand Zero_nat example_pipe naturals 0 (seq 0 10, None) (naturals_give 0 10) 2) as (st & P & Q).
  { right. split; [reflexivity|discriminate]. }
  exists st. split; [exact Q|exact P].
Qed.

(** A failing source: the error is passed on after the values before it, through every stage. *)
Theorem C106_ex_error :
  meaning (PThen (SMapError Zero_nat (fun c x => (if x =? 3 then (9, Some (UserErr 7)) else (x, None), c)) tt)
    (PThen (SSkip Zero_nat 1) PEnd)) ([1; 2; 3; 4], Some EOI) = ([2], Some (UserErr 7)) /\
  meaning (PThen SToSlice (PThen (SExpand Zero_nat) PEnd)) ([1; 2], Some (UserErr 7)) = ([], Some (UserErr 7)) /\
  meaning (PThen (SLimit Zero_nat 2) (PThen SToSlice (PThen (SExpand Zero_nat) PEnd))) ([1; 2], Some (UserErr 7)) = ([1; 2], Some EOI) /\
  meaning (PThen (SReduceBool Nat.even false true) PEnd) ([1; 2; 3], None) = ([true], Some EOI) /\
  demand (PThen (SReduceBool Nat.even false true) PEnd) ([1; 2; 3], None) 2 = 2.
Proof. repeat split. Qed.
