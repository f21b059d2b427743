(** C93: Send while receivers register, remove and send. *)
From Verif Require Import Base Slice SliceMem SliceMemProofs FuncsFn FuncsSpec FuncsProofs FuncsOrd FuncsOrdSpec FuncsOrdProofs EventRe EventReSpec.
Open Scope nat_scope.

Section Lists.
  Context {R : Type} (P Q : R -> Prop).
  Lemma differs_refl l : differs P Q l l. Proof. induction l; constructor; auto. Qed.
  Lemma differs_app a b a' b' : differs P Q a a' -> differs P Q b b' -> differs P Q (a ++ b) (a' ++ b').
  Proof. induction 1; intros Hb; cbn [app]; auto; constructor; auto. Qed.
  Lemma differs_trans a b c : differs P Q a b -> differs P Q b c -> differs P Q a c.
  Proof.
    intros H. revert c. induction H as [|x l l' H IH|x l l' Px H IH|x l l' Qx H IH]; intros c Hc; auto.
    - remember (x :: l') as y eqn:Ey. induction Hc as [|y m m' Hc IHc|y m m' Py Hc IHc|y m m' Qy Hc IHc]; try discriminate.
      + injection Ey as -> ->. constructor; auto.
      + constructor; auto.
      + injection Ey as -> ->. apply df_out; auto.
    - remember (x :: l') as y eqn:Ey. induction Hc as [|y m m' Hc IHc|y m m' Py Hc IHc|y m m' Qy Hc IHc]; try discriminate.
      + injection Ey as -> ->. apply df_in; auto.
      + apply df_in; auto.
      + injection Ey as -> ->. auto.
    - apply df_out; auto.
  Qed.
End Lists.
Lemma differs_none {R} (l l' : list R) : differs (fun _ => False) (fun _ => False) l l' -> l' = l.
Proof. induction 1; [reflexivity|congruence|tauto|tauto]. Qed.
Lemma differs_rm {R} (P Q : R -> Prop) all same (l : list R) : (forall x, In x l -> same x = true -> Q x) -> differs P Q l (rm all same l).
Proof.
  intros H. destruct all; cbn [rm].
  - unfold rm_all. induction l as [|x l IH]; cbn [filter]; [constructor|]. destruct (same x) eqn:E; cbn [negb].
    + apply df_out; [apply H; cbn; auto|]. apply IH. intros; apply H; cbn; auto.
    + constructor. apply IH. intros; apply H; cbn; auto.
  - induction l as [|x l IH]; cbn [rm_first]; [constructor|]. destruct (same x) eqn:E.
    + apply df_out; [apply H; cbn; auto|apply differs_refl].
    + constructor. apply IH. intros; apply H; cbn; auto.
Qed.

Section Mem.
  Context {I R : Type} (o : gord I) (OL : ord_laws o) (addr : R -> Z) (ex : nat -> nat -> nat) {ZT : Zero (I * list R)} (P Q : R -> Prop).
  Notation tup := (I * list R)%type.
  Notation Q' := (same_addr addr Q).
  Definition grown (e e' : tup) : Prop := fst e' = fst e /\ differs P Q' (snd e) (snd e').
  (** every cell of the old arrays keeps its id and loses or gains only such receivers *)
  Definition grows (m m' : mem tup) : Prop :=
    length m <= length m' /\
    (forall a, a < length m -> length (array m' a) = length (array m a)) /\
    (forall a i e, a < length m -> cell m a i = Some e -> exists e', cell m' a i = Some e' /\ grown e e').
  Lemma grown_refl e : grown e e. Proof. split; [reflexivity|apply differs_refl]. Qed.
  Lemma grows_refl m : grows m m.
  Proof. split; [lia|]. split; [auto|]. intros a i e _ H. exists e. split; [exact H|apply grown_refl]. Qed.
  Lemma grows_trans a b c : grows a b -> grows b c -> grows a c.
  Proof.
    intros (A1 & A2 & A3) (B1 & B2 & B3). split; [lia|]. split.
    - intros x L. rewrite B2 by lia. apply A2; lia.
    - intros x i e L H. destruct (A3 x i e L H) as (e' & H' & K1 & D1). destruct (B3 x i e') as (e'' & H'' & K2 & D2); [lia|exact H'|].
      exists e''. split; [exact H''|]. split; [congruence|]. eapply differs_trans; eauto.
  Qed.
  Lemma grows_frame m m' : frame nowhere m m' -> grows m m'.
  Proof.
    intros (A & B & C). split; [auto|]. split; [auto|]. intros a i e L H. exists e. split; [|apply grown_refl]. rewrite C; auto.
  Qed.
  Lemma grows_valid m m' s : grows m m' -> valid m s -> valid m' s.
  Proof. intros (A & B & _). destruct s as [h|]; [|auto]. cbn [valid]. intros (V1 & V2 & V3). rewrite B by auto. lia. Qed.
  Lemma grows_nth m m' s i e : grows m m' -> valid m s -> nth_error (contents m s) i = Some e ->
    exists e', nth_error (contents m' s) i = Some e' /\ grown e e'.
  Proof.
    intros (A & B & C) V H. destruct s as [h|]; [|destruct i; discriminate]. rewrite contents_nth in *. destruct (i <? len h); [|discriminate].
    cbn [valid] in V. apply (C _ _ _ (proj1 V) H).
  Qed.
  Lemma grows_sset m s i e e' m' : valid m s -> nth_error (contents m s) i = Some e -> grown e e' -> sset m s i e' = Done m' -> grows m m'.
  Proof.
    intros V H G S'. destruct s as [h|]; [|discriminate]. rewrite contents_nth in H. cbn [sset] in S'. cbn [valid] in V. destruct V as (V1 & V2 & V3).
    destruct (i <? len h) eqn:L; [|discriminate]. apply Nat.ltb_lt in L. injection S' as <-.
    assert (WL : off h + i + length [e'] <= length (array m (arr h))) by (cbn [length]; lia).
    split; [rewrite upd_length by exact V1; lia|]. split.
    - intros a La. rewrite array_upd by exact V1. destruct (Nat.eqb_spec a (arr h)) as [->|]; [|reflexivity]. apply write_at_length, WL.
    - intros a k x La Hx. unfold cell in *. rewrite array_upd by exact V1. destruct (Nat.eqb_spec a (arr h)) as [->|]; [|exists x; split; [exact Hx|apply grown_refl]].
      rewrite write_at_nth by exact WL. destruct (Nat.ltb_spec k (off h + i)) as [L1|L1]; [exists x; split; [exact Hx|apply grown_refl]|].
      destruct (Nat.ltb_spec k (off h + i + length [e'])) as [L2|L2]; [|exists x; split; [exact Hx|apply grown_refl]].
      cbn [length] in L2. assert (k = off h + i) by lia. subst k. rewrite Nat.sub_diag. cbn [nth_error]. exists e'. split; [reflexivity|].
      rewrite H in Hx. injection Hx as <-. exact G.
  Qed.

  Lemma ord_add_grows m s k v : P v -> valid m s -> exists m' s', ord_add o ex m s k v = Done (m', s') /\ valid m' s' /\ grows m m'.
  Proof.
    intros Pv Vs. unfold ord_add. pose proof (contents_length m s Vs) as CL.
    destruct (ord_search_total o (contents m s) k) as [(E & ->)|(i & e & Es & N & L)]; cbn [obind].
    - change ((-1 =? -1)%Z) with true. cbv iota. do 2 eexists. split; [reflexivity|]. split.
      + cbn [valid arr off len cap]. rewrite array_last, app_length. simpl. lia.
      + apply grows_frame, frame_app.
    - rewrite Es. cbn [obind]. replace (Z.of_nat i =? -1)%Z with false by lia. rewrite Nat2Z.id.
      destruct (oeq o k (fst e)) eqn:E.
      + unfold sget. rewrite N. cbn [obind].
        pose proof (sset_spec m s i (k, snd e ++ [v]) Vs) as H. destruct (sset m s i (k, snd e ++ [v])) as [m'| |] eqn:S'; cbn [obind]; [|lia|tauto].
        exists m', s. split; [reflexivity|]. split; [tauto|]. apply (grows_sset m s i e (k, snd e ++ [v]) m' Vs N); [|exact S'].
        split; [cbn [fst]; apply (ol_eq o OL), E|]. cbn [snd]. rewrite <- (app_nil_r (snd e)) at 1.
        apply differs_app; [apply differs_refl|]. apply df_in; [exact Pv|constructor].
      + pose proof (smake_spec m 0 0) as H. destruct (smake m 0 0) as [m1 s1]. destruct H as (P1 & P2 & P3 & _ & _ & _ & (h & Eh & Ah) & _).
        assert (FS : fresh m s1) by (subst s1; simpl; lia).
        assert (V1 : valid m1 s) by (eapply frame_valid; eauto).
        destruct (reslice_spec m1 s 0 (i + 1) V1) as (b & Eb & Cb & _); [lia|]. rewrite Eb. cbn [obind].
        destruct (sappend ex m1 s1 (contents m1 b)) as [m2 s2] eqn:E2.
        destruct (sappend_fresh ex m m1 s1 _ m2 s2 P3 FS P1 E2) as (Q1 & Q2 & Q3 & Q4).
        destruct (sappend ex m2 s2 [(k, [v])]) as [m3 s3] eqn:E3.
        destruct (sappend_fresh ex m m2 s2 _ m3 s3 Q1 Q2 Q3 E3) as (R1 & R2 & R3 & R4).
        assert (V3 : valid m3 s) by (eapply frame_valid; eauto).
        destruct (reslice_spec m3 s (i + 1) (slen s) V3) as (a & Ea & Ca & _); [lia|]. rewrite Ea. cbn [obind].
        destruct (sappend ex m3 s3 (contents m3 a)) as [m4 s4] eqn:E4.
        destruct (sappend_fresh ex m m3 s3 _ m4 s4 R1 R2 R3 E4) as (T1 & T2 & T3 & T4).
        exists m4, s4. split; [reflexivity|]. split; [exact T3|]. apply grows_frame, T1.
  Qed.
  Lemma ord_remove_value_grows m s k v all : Q v -> valid m s ->
    exists m' s', ord_remove_value o (fun x => Z.eqb (addr x) (addr v)) m s k all = Done (m', s') /\ valid m' s' /\ grows m m'.
  Proof.
    intros Qv Vs. unfold ord_remove_value. pose proof (contents_length m s Vs) as CL.
    destruct (ord_search_total o (contents m s) k) as [(E & ->)|(i & e & Es & N & L)]; cbn [obind].
    - exists m, s. split; [reflexivity|]. split; [auto|apply grows_refl].
    - rewrite Es. cbn [obind]. rewrite Nat2Z.id. destruct (oeq o k (fst e)) eqn:E.
      + unfold sget. rewrite N. cbn [obind]. rewrite remove_elem_rm. set (e' := (k, rm all _ (snd e))).
        pose proof (sset_spec m s i e' Vs) as H. destruct (sset m s i e') as [m'| |] eqn:S'; cbn [obind]; [|lia|tauto].
        exists m', s. split; [reflexivity|]. split; [tauto|]. apply (grows_sset m s i e e' m' Vs N); [|exact S'].
        split; [cbn [fst]; apply (ol_eq o OL), E|]. cbn [snd]. apply differs_rm. intros x _ Hx. apply Z.eqb_eq in Hx. exists v. auto.
      + exists m, s. split; [reflexivity|]. split; [auto|apply grows_refl].
  Qed.
  Definition okreg (r : registry I R) : Prop := valid (rmem r) (receivers r).
  Lemma evop_grows (r : registry I R) op : okreg r -> match op with OAdd _ v => P v | ORemoveValue _ v _ => Q v | ORemoveKey _ => False end ->
    exists r', run_evop o addr ex r op = Done r' /\ okreg r' /\ grows (rmem r) (rmem r').
  Proof.
    intros V H. destruct op as [k v|k|k v all]; cbn [run_evop]; [| tauto |]; unfold ev_register, ev_remove.
    - destruct (ord_add_grows _ _ k v H V) as (m' & s' & -> & V' & G). exists (Reg m' s'). auto.
    - destruct (ord_remove_value_grows _ _ k v all H V) as (m' & s' & -> & V' & G). exists (Reg m' s'). auto.
  Qed.

  Context {T W : Type} (process : R -> T -> W -> prog I R T W).
  Hypothesis US : forall r t w, uses P Q (process r t w).
  Notation reg := (registry I R).
  Definition good_run (run : reg -> prog I R T W -> outcome (T * W * reg)) : Prop :=
    forall r p, okreg r -> uses P Q p -> match run r p with Done (_, _, r') => okreg r' /\ grows (rmem r) (rmem r') | Panicked => False | OutOfFuel => True end.
  Lemma rcvr_loop_good run rs : good_run run -> forall val w r, okreg r ->
    match rcvr_loop process run rs val w r with
    | Done (cs, val', w', r') => okreg r' /\ grows (rmem r) (rmem r') /\ chained val cs val' /\ map callee cs = rs
    | Panicked => False | OutOfFuel => True end.
  Proof.
    intros G. induction rs as [|rc rs IH]; intros val w r V; cbn [rcvr_loop].
    - split; [exact V|]. split; [apply grows_refl|]. split; [constructor|reflexivity].
    - specialize (G r (process rc val w) V (US rc val w)). destruct (run r (process rc val w)) as [[[v1 w1] r1]| |]; cbn [obind]; auto.
      destruct G as (V1 & G1). specialize (IH v1 w1 r1 V1). destruct (rcvr_loop process run rs v1 w1 r1) as [[[[cs v2] w2] r2]| |]; cbn [obind]; auto.
      destruct IH as (V2 & G2 & C2 & M2). split; [exact V2|]. split; [eapply grows_trans; eauto|]. split; [constructor; exact C2|]. cbn [map callee fst]. f_equal. exact M2.
  Qed.
  Lemma id_loop_good run s : good_run run -> forall n i val w r m0, okreg r -> valid m0 s -> grows m0 (rmem r) -> i + n = slen s ->
    match id_loop process run s n i val w r with
    | Done (cs, val', w', r') => okreg r' /\ grows (rmem r) (rmem r') /\ chained val cs val' /\ differs P Q' (flat_map snd (skipn i (contents m0 s))) (map callee cs)
    | Panicked => False | OutOfFuel => True end.
  Proof.
    intros G. induction n as [|n IH]; intros i val w r m0 V V0 G0 L; cbn [id_loop].
    - split; [exact V|]. split; [apply grows_refl|]. split; [constructor|]. rewrite skipn_all2; [constructor|]. rewrite contents_length by exact V0. lia.
    - pose proof (contents_length m0 s V0) as CL. destruct (nth_error (contents m0 s) i) as [e|] eqn:N; [|apply nth_error_None in N; lia].
      destruct (grows_nth _ _ _ _ _ G0 V0 N) as (e' & N' & K & D). unfold sget. rewrite N'. cbn [obind].
      pose proof (rcvr_loop_good run (snd e') G val w r V) as H. destruct (rcvr_loop process run (snd e') val w r) as [[[[cs v1] w1] r1]| |]; cbn [obind]; auto.
      destruct H as (V1 & G1 & C1 & M1). specialize (IH (S i) v1 w1 r1 m0 V1 V0 (grows_trans _ _ _ G0 G1)).
      destruct (id_loop process run s n (S i) v1 w1 r1) as [[[[cs2 v2] w2] r2]| |]; cbn [obind]; [|apply IH; lia|auto].
      destruct IH as (V2 & G2 & C2 & D2); [lia|]. split; [exact V2|]. split; [eapply grows_trans; eauto|]. split.
      + clear - C1 C2. induction C1; cbn [app]; [exact C2|constructor; auto].
      + assert (SK : skipn i (contents m0 s) = e :: skipn (S i) (contents m0 s)).
        { rewrite <- (firstn_skipn i (contents m0 s)) in N at 1. rewrite nth_error_app2 in N by (rewrite firstn_length; lia).
          rewrite firstn_length, Nat.min_l, Nat.sub_diag in N by lia.
          destruct (skipn i (contents m0 s)) as [|x y] eqn:E; [discriminate|]. cbn [nth_error] in N. injection N as ->. f_equal.
          replace (S i) with (i + 1) by lia. rewrite <- skipn_skipn, E. reflexivity. }
        rewrite SK. cbn [flat_map]. rewrite map_app, M1. apply differs_app; assumption.
  Qed.
  Lemma run_prog_good fuel : good_run (run_prog o addr ex process fuel).
  Proof.
    induction fuel as [|fuel IH]; intros r p; revert r; induction p as [t w|op p IHp|t w k IHk]; intros r V U; cbn [uses] in U.
    - split; [exact V|apply grows_refl].
    - cbn. destruct (evop_grows r op V (proj1 U)) as (r' & E & V' & G'). rewrite E. cbn [obind]. specialize (IHp r' V' (proj2 U)). cbn in IHp.
      destruct (_ r' p) as [[[t w] r'']| |]; auto. split; [tauto|]. eapply grows_trans; [exact G'|tauto].
    - exact Logic.I.
    - split; [exact V|apply grows_refl].
    - cbn. destruct (evop_grows r op V (proj1 U)) as (r' & E & V' & G'). rewrite E. cbn [obind]. specialize (IHp r' V' (proj2 U)). cbn in IHp.
      destruct (_ r' p) as [[[t w] r'']| |]; auto. split; [tauto|]. eapply grows_trans; [exact G'|tauto].
    - cbn. pose proof (id_loop_good _ (receivers r) IH (slen (receivers r)) 0 t w r (rmem r) V V (grows_refl _) eq_refl) as H.
      destruct (id_loop process (run_prog o addr ex process fuel) (receivers r) (slen (receivers r)) 0 t w r) as [[[[cs t'] w'] r']| |]; cbn [obind]; auto.
      destruct H as (V' & G' & _). specialize (IHk t' w' r' V' (U t' w')). cbn in IHk.
      destruct (_ r' (k t' w')) as [[[t2 w2] r2]| |]; auto. split; [tauto|]. eapply grows_trans; [exact G'|tauto].
  Qed.
End Mem.

Section C93.
  Context {I R T W : Type} (o : gord I) (addr : R -> Z) (ex : nat -> nat -> nat) {ZT : Zero (I * list R)} (process : R -> T -> W -> prog I R T W).

  (** Receivers that register, remove receivers and send, to any depth, while the registry sends: Send does not panic, passes the
      value from call to call, and its calls are those of the receivers present when it began, in the same order, each once, except that
      receivers being registered meanwhile may get a call too and receivers being removed meanwhile may be left out. *)
  Theorem C93_send (P Q : R -> Prop) fuel reg val w : ord_laws o -> valid (rmem reg) (receivers reg) ->
    (forall r t w, uses P Q (process r t w)) ->
    match send o addr ex process fuel reg val w with
    | Done (calls, val', w', reg') => chained val calls val' /\ differs P (same_addr addr Q) (present reg) (map callee calls) /\
        valid (rmem reg') (receivers reg')
    | Panicked => False
    | OutOfFuel => True
    end.
  Proof.
    intros OL V U. unfold send.
    pose proof (id_loop_good addr ex P Q process U _ (receivers reg) (run_prog_good o OL addr ex P Q process U fuel) (slen (receivers reg)) 0 val w reg (rmem reg) V V (grows_refl addr P Q _) eq_refl) as H.
    destruct (id_loop _ _ _ _ _ _ _ _) as [[[[cs t'] w'] r']| |]; auto. cbn [skipn] in H. tauto.
  Qed.

  (** Without RemoveId, registrations and removals by receivers, Send is that of C50. *)
  Theorem C93_quiet fuel reg val w : ord_laws o -> valid (rmem reg) (receivers reg) ->
    (forall r t w, uses (fun _ => False) (fun _ => False) (process r t w)) ->
    match send o addr ex process fuel reg val w with
    | Done (calls, val', w', reg') => chained val calls val' /\ map callee calls = present reg
    | Panicked => False
    | OutOfFuel => True
    end.
  Proof.
    intros OL V U. pose proof (C93_send _ _ fuel reg val w OL V U) as H. destruct (send o addr ex process fuel reg val w) as [[[[cs t'] w'] r']| |]; auto.
    destruct H as (C & D & _). split; [exact C|]. apply differs_none. clear - D. induction D; try constructor; auto. destruct H as (v & [] & _).
  Qed.

  (** Whatever receivers do, RemoveId included, Send does not panic, and it returns unless they send for ever. *)
  Definition keeps (m m' : mem (I * list R)) : Prop := forall s, valid m s -> valid m' s.
  Lemma evop_keeps (r : registry I R) op : ord_laws o -> valid (rmem r) (receivers r) ->
    exists r', run_evop o addr ex r op = Done r' /\ valid (rmem r') (receivers r') /\ keeps (rmem r) (rmem r').
  Proof.
    intros OL V. set (TT := fun _ : R => True).
    assert (NK : match op with ORemoveKey _ => False | _ => True end -> exists r', run_evop o addr ex r op = Done r' /\ valid (rmem r') (receivers r') /\ keeps (rmem r) (rmem r')).
    { intros H. destruct (evop_grows o OL addr ex TT TT r op V) as (r' & E & V' & G); [destruct op; unfold TT; tauto|].
      exists r'. split; [exact E|]. split; [exact V'|]. intros s Vs. eapply grows_valid; eauto. }
    destruct op as [k v|k|k v all]; [apply NK; exact Logic.I| |apply NK; exact Logic.I]. clear NK.
    cbn [run_evop]. unfold ev_remove_id, ord_remove_key. set (m := rmem r) in *. set (s := receivers r) in *. pose proof (contents_length m s V) as CL.
    destruct (ord_search_total o (contents m s) k) as [(E & ->)|(i & e & Es & N & L)]; cbn [obind].
    - exists (Reg m s). split; [reflexivity|]. split; [exact V|]. intros ? ?; auto.
    - rewrite Es. cbn [obind]. rewrite Nat2Z.id. destruct (oeq o k (fst e)); [|exists (Reg m s); split; [reflexivity|]; split; [exact V|intros ? ?; auto]].
      destruct (reslice_spec m s 0 i V) as (b & Eb & Cb & Vb & _); [lia|]. rewrite Eb. cbn [obind].
      destruct (reslice_spec m s (i + 1) (slen s) V) as (a & Ea & Ca & Va & _); [lia|]. rewrite Ea. cbn [obind].
      pose proof (sappend_spec ex m b (contents m a) Vb) as H. destruct (sappend ex m b (contents m a)) as [m' s'].
      destruct H as (P1 & P2 & _ & F & _). exists (Reg m' s'). split; [reflexivity|]. split; [exact P1|]. intros x Vx. eapply frame_valid; eauto.
  Qed.
  Definition safe_run (ns : Prop) (run : registry I R -> prog I R T W -> outcome (T * W * registry I R)) : Prop :=
    forall r p, valid (rmem r) (receivers r) -> match run r p with
      | Done (_, _, r') => valid (rmem r') (receivers r') /\ keeps (rmem r) (rmem r') | Panicked => False | OutOfFuel => ns -> ~ no_send p end.
  Lemma id_loop_safe (ns : Prop) run s : (ns -> forall r t w, no_send (process r t w)) -> safe_run ns run -> forall n i val w r, valid (rmem r) (receivers r) -> valid (rmem r) s -> i + n = slen s ->
    match id_loop process run s n i val w r with
    | Done (_, _, _, r') => valid (rmem r') (receivers r') /\ keeps (rmem r) (rmem r') | Panicked => False | OutOfFuel => ~ ns end.
  Proof.
    intros NS G.
    assert (RL : forall rs val w r, valid (rmem r) (receivers r) -> match rcvr_loop process run rs val w r with
      | Done (_, _, _, r') => valid (rmem r') (receivers r') /\ keeps (rmem r) (rmem r') | Panicked => False | OutOfFuel => ~ ns end).
    { induction rs as [|rc rs IH]; intros val w r V; cbn [rcvr_loop].
      - split; [exact V|]. intros ? ?; auto.
      - specialize (G r (process rc val w) V). destruct (run r (process rc val w)) as [[[v1 w1] r1]| |]; cbn [obind]; [| exact G | intros N; exact (G N (NS N _ _ _))].
        destruct G as (V1 & K1). specialize (IH v1 w1 r1 V1). destruct (rcvr_loop process run rs v1 w1 r1) as [[[[cs v2] w2] r2]| |]; cbn [obind]; auto.
        split; [tauto|]. intros s' Vs'. apply IH, K1, Vs'. }
    induction n as [|n IH]; intros i val w r V Vs L; cbn [id_loop].
    - split; [exact V|]. intros ? ?; auto.
    - pose proof (contents_length (rmem r) s Vs) as CL. unfold sget. destruct (nth_error (contents (rmem r) s) i) as [e|] eqn:N; [|apply nth_error_None in N; lia].
      cbn [obind]. specialize (RL (snd e) val w r V). destruct (rcvr_loop process run (snd e) val w r) as [[[[cs v1] w1] r1]| |]; cbn [obind]; auto.
      destruct RL as (V1 & K1). specialize (IH (S i) v1 w1 r1 V1 (K1 s Vs)). destruct (id_loop process run s n (S i) v1 w1 r1) as [[[[cs2 v2] w2] r2]| |]; cbn [obind]; [|apply IH; lia|apply IH; lia].
      destruct IH as (V2 & K2); [lia|]. split; [exact V2|]. intros s' Vs'. apply K2, K1, Vs'.
  Qed.
  Lemma run_prog_safe (ns : Prop) fuel : ord_laws o -> (ns -> forall r t w, no_send (process r t w)) -> safe_run ns (run_prog o addr ex process fuel).
  Proof.
    intros OL NS. induction fuel as [|fuel IH]; intros r p; revert r; induction p as [t w|op p IHp|t w k IHk]; intros r V.
    - split; [exact V|]. intros ? ?; auto.
    - cbn. destruct (evop_keeps r op OL V) as (r' & E & V' & K'). rewrite E. cbn [obind]. specialize (IHp r' V'). cbn in IHp.
      destruct (_ r' p) as [[[t w] r'']| |]; auto. split; [tauto|]. intros s' Vs'. apply IHp, K', Vs'.
    - cbn. auto.
    - split; [exact V|]. intros ? ?; auto.
    - cbn. destruct (evop_keeps r op OL V) as (r' & E & V' & K'). rewrite E. cbn [obind]. specialize (IHp r' V'). cbn in IHp.
      destruct (_ r' p) as [[[t w] r'']| |]; auto. split; [tauto|]. intros s' Vs'. apply IHp, K', Vs'.
    - cbn. pose proof (id_loop_safe ns _ (receivers r) NS IH (slen (receivers r)) 0 t w r V V eq_refl) as H.
      destruct (id_loop process (run_prog o addr ex process fuel) (receivers r) (slen (receivers r)) 0 t w r) as [[[[cs t'] w'] r']| |]; cbn [obind]; [|exact H|auto].
      destruct H as (V' & K'). specialize (IHk t' w' r' V'). cbn in IHk.
      destruct (_ r' (k t' w')) as [[[t2 w2] r2]| |]; [|exact IHk|auto]. split; [tauto|]. intros s' Vs'. apply IHk, K', Vs'.
  Qed.
  Theorem C93_no_panic fuel reg val w : ord_laws o -> valid (rmem reg) (receivers reg) ->
    send o addr ex process fuel reg val w <> Panicked /\
    ((forall r t w, no_send (process r t w)) -> exists res, send o addr ex process fuel reg val w = Done res).
  Proof.
    intros OL V. unfold send. split.
    - pose proof (id_loop_safe False _ (receivers reg) ltac:(tauto) (run_prog_safe False fuel OL ltac:(tauto)) (slen (receivers reg)) 0 val w reg V V eq_refl) as H.
      destruct (id_loop _ _ _ _ _ _ _ _) as [| |]; [discriminate|tauto|discriminate].
    - intros NS. pose proof (id_loop_safe True _ (receivers reg) (fun _ => NS) (run_prog_safe True fuel OL (fun _ => NS)) (slen (receivers reg)) 0 val w reg V V eq_refl) as H.
      destruct (id_loop _ _ _ _ _ _ _ _) as [res| |]; [exists res; reflexivity|tauto|tauto].
  Qed.
End C93.

Section Shift.
  Context {I R T W : Type} (o : gord I) (OL : ord_laws o) (addr : R -> Z) (ex : nat -> nat -> nat) {ZT : Zero (I * list R)} (process : R -> T -> W -> prog I R T W).
  Notation tup := (I * list R)%type.

  (** after RemoveId the array holds the entries behind the removed one, moved down, and the last one twice *)
  Lemma remove_key_shift m s (l1 : list tup) k rs l2 z : valid m s -> contents m s = l1 ++ (k, rs) :: l2 ++ [z] -> ksorted o (contents m s) ->
    exists m' s', ord_remove_key o ex m s k = Done (m', s') /\ valid m' s' /\ valid m' s /\ contents m' s = l1 ++ l2 ++ [z; z].
  Proof.
    intros V E SO. pose proof (contents_length m s V) as CL. unfold ord_remove_key. set (i := length l1).
    assert (N : nth_error (contents m s) i = Some (k, rs)) by (rewrite E, nth_error_app2, Nat.sub_diag by (unfold i; lia); reflexivity).
    assert (LN : length (contents m s) = i + S (S (length l2))) by (rewrite E, app_length; cbn [length]; rewrite app_length; cbn [length]; unfold i; lia).
    destruct (ord_search_sorted o OL (contents m s) k SO) as (j & e & Es & Nj & Hl & Hr); [intros X; rewrite X in LN; cbn in LN; lia|].
    assert (j = i /\ oeq o k (fst e) = true) as (-> & Q).
    { destruct (Nat.lt_trichotomy i j) as [L|[->|L]].
      - exfalso. pose proof (ksorted_nth o _ i j _ _ SO L N Nj) as X. unfold key_lt in X. cbn [fst] in X. destruct Hl as [->|Hl]; [lia|congruence].
      - split; [reflexivity|]. rewrite N in Nj. injection Nj as <-. apply (ol_eq o OL). reflexivity.
      - exfalso. pose proof (Hr i _ L N) as X. cbn [fst] in X. rewrite (ol_irr o OL) in X. discriminate. }
    rewrite Es. cbn [obind]. rewrite Q, Nat2Z.id. destruct s as [h|]; [|cbn in LN; lia].
    cbn [slen] in *. destruct V as (V1 & V2 & V3).
    unfold reslice. cbn [scap slen]. replace ((0 <=? i) && (i <=? cap h)) with true by (symmetry; apply andb_true_intro; split; apply Nat.leb_le; lia). cbn [obind].
    replace ((i + 1 <=? len h) && (len h <=? cap h)) with true by (symmetry; apply andb_true_intro; split; apply Nat.leb_le; lia). cbn [obind].
    set (a := Some (Hdr (arr h) (off h + (i + 1)) (len h - (i + 1)) (cap h - (i + 1)))).
    assert (CA : contents m a = l2 ++ [z]).
    { assert (X : contents m a = skipn (i + 1) (contents m (Some h))).
      { apply nth_error_ext. intros q. unfold a. rewrite nth_error_skipn', !contents_nth. cbn [len off arr].
        destruct (Nat.ltb_spec q (len h - (i + 1))), (Nat.ltb_spec (i + 1 + q) (len h)); try lia; [f_equal; lia|reflexivity]. }
      rewrite X, E. replace (l1 ++ (k, rs) :: l2 ++ [z]) with ((l1 ++ [(k, rs)]) ++ l2 ++ [z]) by (rewrite <- app_assoc; reflexivity).
      rewrite skipn_app. rewrite skipn_all2 by (rewrite app_length; cbn [length]; unfold i; lia). rewrite app_length. cbn [length]. fold i.
      rewrite Nat.sub_diag. reflexivity. }
    rewrite CA. unfold sappend. cbn [slen scap len cap].
    assert (LZ : length (l2 ++ [z]) = S (length l2)) by (rewrite app_length; cbn [length]; lia).
    replace (i - 0 + length (l2 ++ [z]) <=? cap h - 0) with true by (symmetry; apply Nat.leb_le; lia). cbn [arr off len cap].
    set (w := write_at _ _ _).
    assert (WL : off h + 0 + (i - 0) + length (l2 ++ [z]) <= length (array m (arr h))) by lia.
    assert (LW : length w = length (array m (arr h))) by (apply write_at_length; exact WL).
    do 2 eexists. split; [reflexivity|]. split; [|split].
    - cbn [valid arr len cap off]. rewrite upd_length, array_upd, Nat.eqb_refl, LW by exact V1. lia.
    - cbn [valid]. rewrite upd_length, array_upd, Nat.eqb_refl, LW by exact V1. lia.
    - apply nth_error_ext. intros q. rewrite contents_nth. unfold cell. rewrite array_upd, Nat.eqb_refl by exact V1. unfold w.
      assert (OLD : forall q, q < len h -> nth_error (array m (arr h)) (off h + q) = nth_error (l1 ++ (k, rs) :: l2 ++ [z]) q).
      { intros q' Hq. rewrite <- E, contents_nth. apply Nat.ltb_lt in Hq. rewrite Hq. reflexivity. }
      rewrite write_at_nth by exact WL. rewrite LZ, app_assoc in *.
      destruct (Nat.ltb_spec q (len h)) as [L|L].
      + destruct (Nat.ltb_spec (off h + q) (off h + 0 + (i - 0))) as [L1|L1].
        * rewrite OLD by exact L. rewrite !nth_error_app1 by (try rewrite app_length; unfold i in *; lia). reflexivity.
        * destruct (Nat.ltb_spec (off h + q) (off h + 0 + (i - 0) + S (length l2))) as [L2|L2].
          -- replace (off h + q - (off h + 0 + (i - 0))) with (q - i) by lia. rewrite <- app_assoc. rewrite (nth_error_app2 l1) by (fold i; lia). fold i.
             replace (l2 ++ [z; z]) with ((l2 ++ [z]) ++ [z]) by (rewrite <- app_assoc; reflexivity). rewrite (nth_error_app1 (l2 ++ [z])) by lia. reflexivity.
          -- rewrite OLD by exact L. assert (q = i + S (length l2)) by lia. subst q.
             rewrite (nth_error_app2 l1) by (fold i; lia). fold i. replace (i + S (length l2) - i) with (S (length l2)) by lia. cbn [nth_error].
             rewrite nth_error_app2, Nat.sub_diag by lia. cbn [nth_error]. rewrite nth_error_app2 by (rewrite app_length; fold i; lia). rewrite app_length. fold i.
             replace (i + S (length l2) - (i + length l2)) with 1 by lia. reflexivity.
      + symmetry. apply nth_error_None. rewrite !app_length. cbn [length]. fold i. lia.
  Qed.

  Notation reg := (registry I R).
  Lemma id_loop_split run s n1 : forall n2 i val w (r : reg),
    id_loop process run s (n1 + n2) i val w r =
    obind (id_loop process run s n1 i val w r) (fun '(cs, v', w', r') =>
      obind (id_loop process run s n2 (i + n1) v' w' r') (fun '(cs', v'', w'', r'') => Done (cs ++ cs', v'', w'', r''))).
  Proof.
    induction n1 as [|n1 IH]; intros n2 i val w r; cbn [id_loop Nat.add].
    - cbn [obind]. rewrite Nat.add_0_r. destruct (id_loop process run s n2 i val w r) as [[[[cs v'] w'] r']| |]; reflexivity.
    - destruct (sget (rmem r) s i) as [e| |]; cbn [obind]; try reflexivity.
      destruct (rcvr_loop process run (snd e) val w r) as [[[[cs v1] w1] r1]| |]; cbn [obind]; try reflexivity.
      rewrite IH. replace (S i + n1) with (i + S n1) by lia.
      destruct (id_loop process run s n1 (S i) v1 w1 r1) as [[[[cs2 v2] w2] r2]| |]; cbn [obind]; try reflexivity.
      destruct (id_loop process run s n2 (i + S n1) v2 w2 r2) as [[[[cs3 v3] w3] r3]| |]; cbn [obind]; try reflexivity. rewrite app_assoc. reflexivity.
  Qed.

  (** receivers that do nothing but compute *)
  Definition quiet (r : R) : Prop := forall t w, exists t' w', process r t w = PRet t' w'.
  Lemma rcvr_loop_quiet fuel rs : (forall r, In r rs -> quiet r) -> forall val w (r : reg),
    exists cs v' w', rcvr_loop process (run_prog o addr ex process fuel) rs val w r = Done (cs, v', w', r) /\ map callee cs = rs.
  Proof.
    induction rs as [|x rs IH]; intros H val w r; cbn [rcvr_loop]; [do 3 eexists; split; reflexivity|].
    destruct (H x (or_introl eq_refl) val w) as (t' & w' & Ex). rewrite Ex.
    replace (run_prog o addr ex process fuel r (PRet t' w')) with (@Done (T * W * reg) (t', w', r)) by (destruct fuel; reflexivity). cbn [obind].
    destruct (IH (fun y Hy => H y (or_intror Hy)) t' w' r) as (cs & v2 & w2 & E2 & M2). rewrite E2. cbn [obind].
    do 3 eexists. split; [reflexivity|]. cbn [map callee fst]. f_equal. exact M2.
  Qed.
  Lemma id_loop_quiet fuel s n : forall i val w (r : reg), (forall e x, In e (firstn n (skipn i (contents (rmem r) s))) -> In x (snd e) -> quiet x) -> i + n <= length (contents (rmem r) s) ->
    exists cs v' w', id_loop process (run_prog o addr ex process fuel) s n i val w r = Done (cs, v', w', r) /\ map callee cs = flat_map snd (firstn n (skipn i (contents (rmem r) s))).
  Proof.
    induction n as [|n IH]; intros i val w r H L; cbn [id_loop]; [do 3 eexists; split; reflexivity|].
    unfold sget. destruct (nth_error (contents (rmem r) s) i) as [e|] eqn:N; [|apply nth_error_None in N; lia]. cbn [obind].
    assert (SK : skipn i (contents (rmem r) s) = e :: skipn (S i) (contents (rmem r) s)).
    { rewrite (nth_split_list _ i e N) at 1. rewrite skipn_app, skipn_all2 by (rewrite firstn_length; lia). rewrite firstn_length, Nat.min_l, Nat.sub_diag by lia. reflexivity. }
    rewrite SK in *. cbn [firstn] in *. destruct (rcvr_loop_quiet fuel (snd e) (fun x Hx => H e x (or_introl eq_refl) Hx) val w r) as (cs & v1 & w1 & E1 & M1). rewrite E1. cbn [obind].
    destruct (IH (S i) v1 w1 r (fun e' x He => H e' x (or_intror He))) as (cs2 & v2 & w2 & E2 & M2); [lia|]. rewrite E2. cbn [obind].
    do 3 eexists. split; [reflexivity|]. rewrite map_app, M1, M2. reflexivity.
  Qed.

  (** Finding: a receiver that removes its own id during Send (a one-shot receiver, say) makes Send skip the next id altogether and
      serve the last id twice. *)
  Theorem C93_remove_id_refuted fuel reg val w l1 k r e l2 z : valid (rmem reg) (receivers reg) -> ksorted o (contents (rmem reg) (receivers reg)) ->
    contents (rmem reg) (receivers reg) = l1 ++ (k, [r]) :: e :: l2 ++ [z] ->
    (forall t w, exists t' w', process r t w = POp (ORemoveKey k) (PRet t' w')) ->
    (forall x, In x (flat_map snd (l1 ++ e :: l2 ++ [z])) -> forall t w, exists t' w', process x t w = PRet t' w') ->
    exists calls val' w' reg', send o addr ex process fuel reg val w = Done (calls, val', w', reg') /\
      map callee calls = flat_map snd l1 ++ [r] ++ flat_map snd l2 ++ snd z ++ snd z.
  Proof.
    intros V SO E RM QU. destruct reg as [m s]. cbn [rmem receivers] in *. unfold send. cbn [rmem receivers].
    pose proof (contents_length m s V) as CL. assert (LN : slen s = length l1 + (1 + S (S (length l2)))) by (rewrite <- CL, E, app_length; cbn [length]; rewrite app_length; cbn [length]; lia).
    assert (QU' : forall x y, In x (l1 ++ e :: l2 ++ [z]) -> In y (snd x) -> quiet y).
    { intros x y Hx Hy t0 w0. apply QU. apply in_flat_map. exists x. auto. }
    rewrite LN, id_loop_split.
    assert (F1 : firstn (length l1) (skipn 0 (contents m s)) = l1) by (rewrite E; cbn [skipn]; rewrite firstn_app, Nat.sub_diag, firstn_all, app_nil_r; reflexivity).
    destruct (id_loop_quiet fuel s (length l1) 0 val w (Reg m s)) as (c1 & v1 & w1 & E1 & M1).
    { cbn [rmem]. rewrite F1. intros x y Hx. apply QU'. apply in_or_app. auto. }
    { cbn [rmem]. lia. }
    rewrite E1. cbn [obind rmem] in *. rewrite F1 in M1. remember (S (S (length l2))) as n2 eqn:EN. rewrite id_loop_split. cbn [id_loop Nat.add].
    assert (N : nth_error (contents m s) (length l1) = Some (k, [r])) by (rewrite E, nth_error_app2, Nat.sub_diag by lia; reflexivity).
    unfold sget. cbn [rmem]. rewrite N. cbn [obind snd rcvr_loop]. destruct (RM v1 w1) as (t' & w' & EP). rewrite EP.
    destruct (remove_key_shift m s l1 k [r] (e :: l2) z V E SO) as (m' & s' & ER & V' & Vs & C').
    assert (RP : run_prog o addr ex process fuel (Reg m s) (POp (ORemoveKey k) (PRet t' w')) = Done (t', w', Reg m' s')).
    { destruct fuel; cbn; unfold ev_remove_id; cbn [rmem receivers]; rewrite ER; reflexivity. }
    rewrite RP. cbn [obind]. clear RP.
    assert (C2 : skipn (length l1 + 1) (contents m' s) = l2 ++ [z; z]).
    { rewrite C', skipn_app. rewrite skipn_all2 by lia. replace (length l1 + 1 - length l1) with 1 by lia. reflexivity. }
    assert (L2 : length (contents m' s) = length l1 + S n2) by (rewrite C', !app_length; cbn [length]; lia).
    assert (F2 : firstn n2 (skipn (length l1 + 1) (contents m' s)) = l2 ++ [z; z]) by (rewrite C2; apply firstn_all2; rewrite app_length; cbn [length]; lia).
    destruct (id_loop_quiet fuel s n2 (length l1 + 1) t' w' (Reg m' s')) as (c2 & v2 & w2 & E2 & M2).
    { cbn [rmem]. rewrite F2. intros x y Hx. apply QU'. apply in_or_app. right. right. apply in_app_or in Hx. apply in_or_app. destruct Hx as [Hx|[->|[->|[]]]]; cbn; auto. }
    { cbn [rmem]. lia. }
    rewrite E2. cbn [obind app]. do 4 eexists. split; [reflexivity|]. rewrite map_app. cbn [map callee fst]. rewrite M1, M2. cbn [rmem]. rewrite F2.
    rewrite flat_map_app. cbn [flat_map]. rewrite app_nil_r. reflexivity.
  Qed.

  (** A Remove for an id Send has not reached yet takes effect in the running Send. *)
  Theorem C93_remove_later fuel reg val w l1 k r l2 k2 rs2 l3 x all : valid (rmem reg) (receivers reg) -> ksorted o (contents (rmem reg) (receivers reg)) ->
    contents (rmem reg) (receivers reg) = l1 ++ (k, [r]) :: l2 ++ (k2, rs2) :: l3 ->
    (forall t w, exists t' w', process r t w = POp (ORemoveValue k2 x all) (PRet t' w')) ->
    (forall y, In y (flat_map snd (l1 ++ l2 ++ (k2, rs2) :: l3)) -> forall t w, exists t' w', process y t w = PRet t' w') ->
    exists calls val' w' reg', send o addr ex process fuel reg val w = Done (calls, val', w', reg') /\
      map callee calls = flat_map snd l1 ++ [r] ++ flat_map snd l2 ++ rm all (fun y => Z.eqb (addr y) (addr x)) rs2 ++ flat_map snd l3.
  Proof.
    intros V SO E RM QU. destruct reg as [m s]. cbn [rmem receivers] in *. unfold send. cbn [rmem receivers].
    set (rs2' := rm all (fun y => Z.eqb (addr y) (addr x)) rs2).
    pose proof (contents_length m s V) as CL. assert (LN : slen s = length l1 + (1 + (length l2 + S (length l3)))) by (rewrite <- CL, E, app_length; cbn [length]; rewrite app_length; cbn [length]; lia).
    assert (QU' : forall x y, In x (l1 ++ l2 ++ (k2, rs2) :: l3) -> In y (snd x) -> quiet y).
    { intros x' y Hx Hy t0 w0. apply QU. apply in_flat_map. exists x'. auto. }
    rewrite LN, id_loop_split.
    assert (F1 : firstn (length l1) (skipn 0 (contents m s)) = l1) by (rewrite E; cbn [skipn]; rewrite firstn_app, Nat.sub_diag, firstn_all, app_nil_r; reflexivity).
    destruct (id_loop_quiet fuel s (length l1) 0 val w (Reg m s)) as (c1 & v1 & w1 & E1 & M1).
    { cbn [rmem]. rewrite F1. intros x' y Hx. apply QU'. apply in_or_app. auto. }
    { cbn [rmem]. lia. }
    rewrite E1. cbn [obind rmem] in *. rewrite F1 in M1. remember (length l2 + S (length l3)) as n2 eqn:EN. rewrite id_loop_split. cbn [id_loop Nat.add].
    assert (N : nth_error (contents m s) (length l1) = Some (k, [r])) by (rewrite E, nth_error_app2, Nat.sub_diag by lia; reflexivity).
    unfold sget. cbn [rmem]. rewrite N. cbn [obind snd rcvr_loop]. destruct (RM v1 w1) as (t' & w' & EP). rewrite EP.
    assert (SP : contents m s = (l1 ++ (k, [r]) :: l2) ++ (k2, rs2) :: l3) by (rewrite E, <- app_assoc; reflexivity).
    set (j := length (l1 ++ (k, [r]) :: l2)).
    assert (N2 : nth_error (contents m s) j = Some (k2, rs2)) by (rewrite SP, nth_error_app2, Nat.sub_diag by (unfold j; lia); reflexivity).
    destruct (ord_search_sorted o OL (contents m s) k2 SO) as (j' & e & Es & Nj & Hl & Hr); [rewrite E; destruct l1; discriminate|].
    assert (j' = j) as ->.
    { destruct (Nat.lt_trichotomy j j') as [L|[->|L]]; [|reflexivity|].
      - exfalso. pose proof (ksorted_nth o _ j j' _ _ SO L N2 Nj) as X. unfold key_lt in X. cbn [fst] in X. destruct Hl as [->|Hl]; [lia|congruence].
      - exfalso. pose proof (Hr j _ L N2) as X. cbn [fst] in X. rewrite (ol_irr o OL) in X. discriminate. }
    rewrite N2 in Nj. injection Nj as <-. cbn [fst] in Es. rewrite (proj2 (ol_eq o OL k2 k2) eq_refl) in Es.
    assert (RV : exists m', ord_remove_value o (fun y => Z.eqb (addr y) (addr x)) m s k2 all = Done (m', s) /\ contents m' s = l1 ++ (k, [r]) :: l2 ++ (k2, rs2') :: l3).
    { unfold ord_remove_value. rewrite Es. cbn [obind]. rewrite Nat2Z.id. unfold sget. rewrite N2. cbn [obind snd]. rewrite remove_elem_rm. fold rs2'.
      pose proof (sset_spec m s j (k2, rs2') V) as H. destruct (sset m s j (k2, rs2')) as [m'| |]; cbn [obind].
      - exists m'. split; [reflexivity|]. destruct H as (_ & _ & _ & H & _). destruct (set_nth_split _ _ _ _ _ N2 H) as (_ & ->). rewrite SP. unfold j.
        rewrite firstn_app, Nat.sub_diag, firstn_all. rewrite skipn_app. rewrite skipn_all2 by lia.
        replace (S (length (l1 ++ (k, [r]) :: l2)) - length (l1 ++ (k, [r]) :: l2)) with 1 by lia. cbn [firstn skipn app]. rewrite app_nil_r, <- app_assoc. reflexivity.
      - exfalso. assert (j < length (contents m s)) by (apply nth_error_Some; congruence). lia.
      - tauto. }
    destruct RV as (m' & ER & C').
    assert (RP : run_prog o addr ex process fuel (Reg m s) (POp (ORemoveValue k2 x all) (PRet t' w')) = Done (t', w', Reg m' s)).
    { destruct fuel; cbn; unfold ev_remove; cbn [rmem receivers]; rewrite ER; reflexivity. }
    rewrite RP. cbn [obind]. clear RP.
    assert (C2 : skipn (length l1 + 1) (contents m' s) = l2 ++ (k2, rs2') :: l3).
    { rewrite C', skipn_app. rewrite skipn_all2 by lia. replace (length l1 + 1 - length l1) with 1 by lia. reflexivity. }
    assert (L2 : length (contents m' s) = length l1 + S n2) by (rewrite C', app_length; cbn [length]; rewrite app_length; cbn [length]; lia).
    assert (F2 : firstn n2 (skipn (length l1 + 1) (contents m' s)) = l2 ++ (k2, rs2') :: l3) by (rewrite C2; apply firstn_all2; rewrite app_length; cbn [length]; lia).
    assert (INRM : forall y, In y rs2' -> In y rs2).
    { intros y. unfold rs2', rm. destruct all; [unfold rm_all; rewrite filter_In; tauto|]. clear. induction rs2 as [|a b IH]; cbn [rm_first]; [auto|].
      destruct (addr a =? addr x)%Z; cbn [In]; tauto. }
    destruct (id_loop_quiet fuel s n2 (length l1 + 1) t' w' (Reg m' s)) as (c2 & v2 & w2 & E2 & M2).
    { cbn [rmem]. rewrite F2. intros x' y Hx Hy. apply in_app_or in Hx. destruct Hx as [Hx|[<-|Hx]].
      - apply (QU' x' y); [apply in_or_app; right; apply in_or_app; auto|exact Hy].
      - apply (QU' (k2, rs2) y); [apply in_or_app; right; apply in_or_app; right; left; reflexivity|apply INRM, Hy].
      - apply (QU' x' y); [apply in_or_app; right; apply in_or_app; right; right; exact Hx|exact Hy]. }
    { cbn [rmem]. lia. }
    rewrite E2. cbn [obind app]. do 4 eexists. split; [reflexivity|]. rewrite map_app. cbn [map callee fst]. rewrite M1, M2. cbn [rmem]. rewrite F2.
    rewrite flat_map_app. reflexivity.
  Qed.
End Shift.

(** Receivers are numbers here; each adds its number to the list it is given. *)
Definition ex_reg (ops : list (ordop Z Z)) : registry Z Z := match run_evops ord_int (fun x => x) (fun _ _ => 1) registry0 ops with Done r => r | _ => registry0 end.
Definition ex_calls (process : Z -> list Z -> unit -> prog Z Z (list Z) unit) (fuel : nat) (r : registry Z Z) : option (list Z * list Z) :=
  match send ord_int (fun x => x) (fun _ _ => 1) process fuel r [] tt with Done (cs, t, _, _) => Some (map callee cs, t) | _ => None end.
Definition ex_three : registry Z Z := ex_reg [OAdd 1 10; OAdd 2 20; OAdd 3 30; OAdd 4 40]%Z.
(** 10 registers 21 for id 2, which is served in the same Send, and 50 for the new id 5, which is not. *)
Definition ex_p1 (r : Z) (t : list Z) (w : unit) : prog Z Z (list Z) unit :=
  if Z.eqb r 10 then POp (OAdd 2 21)%Z (POp (OAdd 5 50)%Z (PRet (t ++ [r]) w)) else PRet (t ++ [r]) w.
Example ex_register : ex_calls ex_p1 0 ex_three = Some ([10; 20; 21; 30; 40], [10; 20; 21; 30; 40])%Z. Proof. vm_compute. reflexivity. Qed.
Example ex_uses : forall r t w, uses (fun v => v = 21 \/ v = 50)%Z (fun _ => False) (ex_p1 r t w).
Proof. intros r t w. unfold ex_p1. destruct (r =? 10)%Z; cbn; auto. Qed.
(** a receiver that sends once more, and one that does so for ever *)
Definition ex_p2 (r : Z) (t : list Z) (w : unit) : prog Z Z (list Z) unit :=
  if (Z.eqb r 10 && Nat.eqb (length t) 0)%bool then PSend (t ++ [r]) w (fun t' w' => PRet t' w') else PRet (t ++ [r]) w.
Example ex_nested : ex_calls ex_p2 1 ex_three = Some ([10; 20; 30; 40], [10; 10; 20; 30; 40; 20; 30; 40])%Z. Proof. vm_compute. reflexivity. Qed.
(** the one-shot receiver of id 1: id 2 is skipped, id 4 served twice *)
Definition ex_p3 (r : Z) (t : list Z) (w : unit) : prog Z Z (list Z) unit :=
  if Z.eqb r 10 then POp (ORemoveKey 1)%Z (PRet (t ++ [r]) w) else PRet (t ++ [r]) w.
Example ex_one_shot : ex_calls ex_p3 0 ex_three = Some ([10; 30; 40; 40], [10; 30; 40; 40])%Z. Proof. vm_compute. reflexivity. Qed.
Example ex_sorted : valid (rmem ex_three) (receivers ex_three) /\ ksorted ord_int (contents (rmem ex_three) (receivers ex_three)) /\
  contents (rmem ex_three) (receivers ex_three) = [(1, [10]); (2, [20]); (3, [30]); (4, [40])]%Z.
Proof. split; [vm_compute; lia|]. split; [|vm_compute; reflexivity]. vm_compute contents. unfold ksorted. cbn. repeat constructor. Qed.

(** Finding: a Remove that comes after the registration of a new id, in the same Send, does not take effect in it: 20 is called
    although it was removed before its turn. *)
Definition ex_p4 (r : Z) (t : list Z) (w : unit) : prog Z Z (list Z) unit :=
  if Z.eqb r 10 then POp (OAdd 5 50)%Z (POp (ORemoveValue 2 20 true)%Z (PRet (t ++ [r]) w)) else PRet (t ++ [r]) w.
Definition ex_p5 (r : Z) (t : list Z) (w : unit) : prog Z Z (list Z) unit :=
  if Z.eqb r 10 then POp (ORemoveValue 2 20 true)%Z (POp (OAdd 5 50)%Z (PRet (t ++ [r]) w)) else PRet (t ++ [r]) w.
Theorem C93_finding_stale : ex_calls ex_p4 0 ex_three = Some ([10; 20; 30; 40], [10; 20; 30; 40])%Z /\
  ex_calls ex_p5 0 ex_three = Some ([10; 30; 40], [10; 30; 40])%Z.
Proof. split; vm_compute; reflexivity. Qed.

Print Assumptions C93_send. Print Assumptions C93_quiet. Print Assumptions C93_no_panic. Print Assumptions C93_remove_id_refuted.
Print Assumptions C93_remove_later. Print Assumptions C93_finding_stale.
