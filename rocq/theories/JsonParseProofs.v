(** The parser, over any token iterator: what it accepts, and that it always returns. *)
From Verif Require Import Base GoMap Iter IterSpec IterProofs Stream Rest RestProofs Union Json JsonLex JsonParse JsonSpec JsonSim JsonLexProofs JsonTokProofs.
Open Scope go_scope.
Open Scope nat_scope.

Scheme gval_mind := Induction for gval Sort Prop
with gmembers_mind := Induction for gmembers Sort Prop
with gelems_mind := Induction for gelems Sort Prop.
Combined Scheme grammar_ind from gval_mind, gmembers_mind, gelems_mind.

Lemma str_eq_ok : eq_decides str_eqb.
Proof. exact RestProofs.str_eqb_eq. Qed.

Lemma mget_absent (m : list (str * value)) k : ~ In k (map fst m) -> mget str_eqb m k = None.
Proof. intros N. apply (mget_none str_eqb str_eq_ok). exact N. Qed.
Lemma mset_absent (m : list (str * value)) k v : ~ In k (map fst m) -> mset str_eqb m k v = m ++ [(k, v)].
Proof.
  induction m as [|[k' v'] m IH]; intros N; cbn in *; auto.
  destruct (str_eqb k k') eqn:Q. { apply str_eq_ok in Q. subst. tauto. } rewrite IH; tauto.
Qed.

(** The result does not depend on how the two bounds grow. *)
Definition ok2 {A J} (f : nat -> nat -> outcome (A * J)) (a : A) (j : J) : Prop :=
  exists n, forall d m, n <= d -> n <= m -> f d m = Done (a, j).

Lemma ok2_ret {A J} (a : A) (j : J) : ok2 (fun _ _ => Done (a, j)) a j.
Proof. exists 0; auto. Qed.
Lemma ok2_bind {A B J K} (f : nat -> nat -> outcome (A * K)) (g : nat -> nat -> A * K -> outcome (B * J)) a k b j :
  ok2 f a k -> ok2 (fun d m => g d m (a, k)) b j -> ok2 (fun d m => obind (f d m) (g d m)) b j.
Proof. intros [n H] [n2 H2]. exists (n + n2). intros d m L1 L2. rewrite H by lia. cbn. apply H2; lia. Qed.
Lemma ok2_S {A J} (f : nat -> nat -> outcome (A * J)) a j : ok2 (fun d m => f d (S m)) a j -> ok2 f a j.
Proof. intros [n H]. exists (S n). intros d [|m] L1 L2; [lia|]. apply H; lia. Qed.
Lemma ok2_S1 {A J} (f : nat -> nat -> outcome (A * J)) a j : ok2 (fun d m => f (S d) m) a j -> ok2 f a j.
Proof. intros [n H]. exists (S n). intros [|d] m L1 L2; [lia|]. apply H; lia. Qed.
Lemma ok2_eq {A J} (f g : nat -> nat -> outcome (A * J)) a j : (forall d m, f d m = g d m) -> ok2 g a j -> ok2 f a j.
Proof. intros E [n H]. exists n. intros. rewrite E. auto. Qed.
Lemma ok2_det {A J} (f : nat -> nat -> outcome (A * J)) a j a' j' : ok2 f a j -> ok2 f a' j' -> a = a' /\ j = j'.
Proof. intros [n H] [n2 H2]. specialize (H (n + n2) (n + n2) ltac:(lia) ltac:(lia)). rewrite H2 in H by lia. inversion H; auto. Qed.
Lemma ok2_diag {T J} (f : nat -> stepfn J T) s r s' : ok2 (fun d m => f d m s) r s' -> returns (fun m => f m m) s r s'.
Proof. intros [n H]. exists n. intros. apply H; auto. Qed.

Lemma next_live {S0 T} `{Zero T} (fn : stepfn S0 T) m (s : S0) : next fn m (ofIter s) =
  let! (r, s') := fn m s in
  match r with
  | (v, None) => Done ((v, None), ofIter s')
  | (_, Some e) => Done ((zv, Some e), mkImpl false s' [] (Some e))
  end.
Proof. reflexivity. Qed.

Section P.
  Context {I : Type} (nx : stepfn I token) (un : I -> token -> I) (e : err).
  Hypothesis UN : forall s v, returns nx (un s v) (v, None) s.
  Notation Y := (fun i ts => yields nx i ts e).
  Notation pv d := (parse_value nx un d).

  Lemma Y_un i v ts : Y i ts -> Y (un i v) (v :: ts).
  Proof. intros H. eapply yields_cons; eauto. Qed.
  Lemma Y_un_next i v : ok2 (fun _ m => nx m (un i v)) (v, None) i.
  Proof. destruct (UN i v) as [n H]. exists n. auto. Qed.
  Lemma Y_nil i : Y i [] -> exists i', ok2 (fun _ m => nx m i) (zv, Some e) i' /\ Y i' [].
  Proof.
    intros H. apply yields_nil_inv in H. apply stuck_inv in H as (i' & [n R] & ST). exists i'. split; [exists n; auto|].
    exists i'. split; auto. constructor.
  Qed.
  Lemma Y_cons i t ts : Y i (t :: ts) -> exists i', ok2 (fun _ m => nx m i) (t, None) i' /\ Y i' ts.
  Proof. intros H. apply yields_cons_inv in H as (i' & [n R] & H). exists i'. split; auto. exists n; auto. Qed.

  (** the iterator an iterator of tokens leads to after its first token was put back *)
  Lemma Y_cons_un i t ts : Y i (t :: ts) -> exists i', ok2 (fun _ m => nx m i) (t, None) i' /\ Y i' ts /\ Y (un i' t) (t :: ts).
  Proof. intros H. destruct (Y_cons _ _ _ H) as (i' & R & H'). exists i'. split; auto. split; auto. apply Y_un; auto. Qed.

  (** ** Arrays *)
  Inductive arun : bool * I -> list value -> err -> bool * I -> Prop :=
  | ar_end st e' st' : ok2 (fun d m => array_gen nx un (pv d) m st) (zv, Some e') st' -> arun st [] e' st'
  | ar_step st v st1 vs e' st' : ok2 (fun d m => array_gen nx un (pv d) m st) (v, None) st1 -> arun st1 vs e' st' ->
      arun st (v :: vs) e' st'.

  Definition slice_end (slc : list value) (e' : err) : ret (list value) :=
    match e' with EOI => (slc, None) | _ => ([], Some e') end.

  Lemma arun_pull st vs e' st' : arun st vs e' st' -> forall acc,
    exists n, forall d loop m, n <= d -> n <= loop -> n <= m ->
      pull_loop (next (array_gen nx un (pv d))) (fun slc val => Done (inl (slc ++ [val]))) slice_end loop m acc (ofIter st)
      = Done (slice_end (acc ++ vs) e', mkImpl false st' [] (Some e')).
  Proof.
    induction 1 as [st e' st' [n H]|st v st1 vs e' st' [n H] _ IH]; intros acc.
    - exists (S n). intros d [|loop] m L1 L2 L3; [lia|]. cbn [pull_loop]. rewrite next_live, H by lia. cbn. rewrite app_nil_r. reflexivity.
    - destruct (IH (acc ++ [v])) as [n2 H2]. exists (S (n + n2)). intros d [|loop] m L1 L2 L3; [lia|].
      cbn [pull_loop]. rewrite next_live, H by lia. cbn [obind]. rewrite H2 by lia. rewrite <- app_assoc. reflexivity.
  Qed.

  Lemma arun_collect i vs e' st' : arun (true, i) vs e' st' ->
    ok2 (fun d m => collect_array nx un (pv d) m i) (slice_end vs e') (snd st').
  Proof.
    intros R. destruct (arun_pull _ _ _ _ R []) as [n H]. exists n. intros d m L1 L2.
    assert (E : st_to_slice (next (array_gen nx un (pv d))) m (false, parse_array i) = Done (slice_end vs e', (true, mkImpl false st' [] (Some e')))).
    { change vs with ([] ++ vs).
      transitivity (obind (Done (slice_end ([] ++ vs) e', mkImpl (T := value) false st' [] (Some e')))
        (fun rs => let '(r, s') := rs in Done (r, (true, s')))); [|reflexivity].
      rewrite <- (H d m m) by lia. reflexivity. }
    unfold collect_array. rewrite next_live, E. unfold slice_end. destruct e'; reflexivity.
  Qed.

  Lemma arun_emits st vs e' st' : arun st vs e' st' ->
    exists s1, emits (array_gen nx un (parseValue nx un)) st vs s1 /\ fails (array_gen nx un (parseValue nx un)) s1 e' st'.
  Proof.
    assert (DIAG : forall st r s', ok2 (fun d m => array_gen nx un (pv d) m st) r s' -> returns (array_gen nx un (parseValue nx un)) st r s').
    { intros st0 r s' [n H]. exists n. intros m L. rewrite <- (H m m L L). reflexivity. }
    induction 1 as [st e' st' H|st v st1 vs e' st' H R IH].
    - exists st. split; [constructor|]. exists zv. auto.
    - destruct IH as (s1 & E & F). exists s1. split; auto. econstructor; eauto.
  Qed.

  (** ** What is accepted *)
  Definition okv (pre : list token) (t : tree) : Prop :=
    forall i rest, Y i (pre ++ rest) -> exists i', ok2 (fun d m => pv d m i) (value_of t, None) i' /\ Y i' rest.

  Definition member_vals (m : list (str * tree)) : list (str * value) := map (fun kv => (fst kv, value_of (snd kv))) m.
  Definition okm (seen : list str) (pre : list token) (m : list (str * tree)) : Prop :=
    forall obj i rest, (forall k, In k (map fst obj) -> In k seen) -> Y i (pre ++ rest) ->
    exists i', ok2 (fun d f => obj_loop nx un (pv d) f obj i) (mkV TObject (of4t (obj ++ member_vals m)), None) i' /\ Y i' rest.
  (** positioned before the first element *)
  Definition oka (pre : list token) (l : list tree) : Prop :=
    (forall i rest, Y i (pre ++ rest) -> forall v i0, ttyp v = tComma -> Y i0 (v :: pre ++ rest) ->
       exists st', arun (false, i0) (map value_of l) EOI st' /\ Y (snd st') rest) /\
    (forall i rest o, hd tCBracket (map ttyp pre) <> tCBracket -> Y i (o :: pre ++ rest) ->
       exists st', arun (true, i) (map value_of l) EOI st' /\ Y (snd st') rest).

  Ltac nxt H i' R Y' := let X := fresh in destruct (Y_cons_un _ _ _ H) as (i' & R & Y' & X).

  (** obj_loop after the colon *)
  Definition obj_tail (obj : list (str * value)) k i3 d f :=
    let! (r, i4) := pv d f i3 in
    match r with
    | (_, Some e) => Done ((zv, Some e), i4)
    | (value, None) =>
        let object' := mset str_eqb obj k value in
        let! (r, i5) := nx f i4 in
        match r with
        | (_, Some e) => Done ((zv, Some (eoi_or errObjectKeyValueRequiresCommaOrBrace e)), i5)
        | (commaBrace, None) =>
            match ttyp commaBrace with
            | tComma => obj_loop nx un (pv d) f object' i5
            | tCBrace => Done (mapToValue object', i5)
            | _ => Done ((zv, Some errObjectKeyValueRequiresCommaOrBrace), i5)
            end
        end
    end.

  Ltac stp R := eapply ok2_bind; [exact R|]; cbv beta iota.
  Lemma obj_key obj i k colon t1 ts :
    ~ In k (map fst obj) -> ttyp colon = tColon -> Y i (mkTok tString k :: colon :: t1 :: ts) ->
    exists i3, Y i3 (t1 :: ts) /\ forall b i', ok2 (obj_tail obj k i3) b i' -> ok2 (fun d f => obj_loop nx un (pv d) f obj i) b i'.
  Proof.
    intros N C H. nxt H i1 R1 Y1. nxt Y1 i2 R2 Y2. destruct (Y_cons_un _ _ _ Y2) as (i3 & R3 & Y3 & U3).
    exists (un i3 t1). split; auto. intros b i' K. apply ok2_S. cbn [obj_loop]. stp R1. cbn [ttyp tval]. rewrite mget_absent by auto.
    stp R2. rewrite C. stp R3. exact K.
  Qed.
  Lemma obj_value obj k i3 pre rest t c : ~ In k (map fst obj) -> okv pre t -> Y i3 (pre ++ c :: rest) ->
    exists i5, Y i5 rest /\
      (ttyp c = tCBrace -> ok2 (obj_tail obj k i3) (mkV TObject (of4t (obj ++ [(k, value_of t)])), None) i5) /\
      (ttyp c = tComma -> forall b i', ok2 (fun d f => obj_loop nx un (pv d) f (obj ++ [(k, value_of t)]) i5) b i' -> ok2 (obj_tail obj k i3) b i').
  Proof.
    intros N V H. destruct (V _ _ H) as (i4 & R4 & Y4). nxt Y4 i5 R5 Y5. exists i5. split; auto. unfold obj_tail. split.
    - intros C. stp R4. rewrite mset_absent by auto. stp R5. rewrite C. apply ok2_ret.
    - intros C b i' K. stp R4. rewrite mset_absent by auto. stp R5. rewrite C. exact K.
  Qed.
  Lemma obj_close obj i c rest : ttyp c = tCBrace -> Y i (c :: rest) ->
    exists i', Y i' rest /\ ok2 (fun d f => obj_loop nx un (pv d) f obj i) (mkV TObject (of4t obj), None) i'.
  Proof.
    intros C H. nxt H i1 R1 Y1. exists i1. split; auto. apply ok2_S. cbn [obj_loop]. stp R1. rewrite C. apply ok2_ret.
  Qed.

  Lemma gval_ne b ts t : gval b ts t -> exists t1 ts1, ts = t1 :: ts1.
  Proof. destruct 1; eauto. Qed.

  Lemma accepts (b : bool) :
    (forall ts t, gval b ts t -> Forall tok_ok ts -> okv ts t) /\
    (forall seen ts m, gmembers b seen ts m -> Forall tok_ok ts -> okm seen ts m) /\
    (forall ts l, gelems b ts l -> Forall tok_ok ts -> oka ts l).
  Proof.
    apply grammar_ind.
    - intros s F i rest H. cbn in H. nxt H i1 R1 Y1. exists i1. split; auto. apply ok2_S1. cbn [parse_value]. stp R1. apply ok2_ret.
    - intros s F i rest H. cbn in H. nxt H i1 R1 Y1. exists i1. split; auto. apply ok2_S1. cbn [parse_value]. stp R1. cbn [fst ttyp tval].
      inversion F as [|? ? O _]; subst. unfold tok_ok in O. cbn in O. cbn [numberToValue]. unfold number_match.
      replace (existsb Decimal.is_digit s) with true by (symmetry; exact O). apply ok2_ret.
    - intros F i rest H. cbn in H. nxt H i1 R1 Y1. exists i1. split; auto. apply ok2_S1. cbn [parse_value]. stp R1. apply ok2_ret.
    - intros F i rest H. cbn in H. nxt H i1 R1 Y1. exists i1. split; auto. apply ok2_S1. cbn [parse_value]. stp R1. apply ok2_ret.
    - intros s F i rest H. cbn in H. nxt H i1 R1 Y1. exists i1. split; auto. apply ok2_S1. cbn [parse_value]. stp R1. apply ok2_ret.
    - intros ty s _ ST F i rest H. cbn in H. nxt H i1 R1 Y1. exists i1. split; auto. apply ok2_S1. cbn [parse_value]. stp R1. cbn [fst ttyp].
      destruct ST as [->|[->|[->| ->]]]; apply ok2_ret.
    - intros o c O C F i rest H. cbn in H. destruct (Y_cons_un _ _ _ H) as (i1 & R1 & Y1 & U1).
      destruct (obj_close [] i1 c rest C Y1) as (i2 & Y2 & K). exists i2. split; auto.
      apply ok2_S1. cbn [parse_value]. stp R1. cbn [fst]. rewrite O. unfold parse_object. stp (Y_un_next i1 o). exact K.
    - intros o ts m O _ IH F i rest H. inversion F; subst. cbn in H. destruct (Y_cons_un _ _ _ H) as (i1 & R1 & Y1 & U1).
      destruct (IH ltac:(auto) [] i1 rest ltac:(cbn; tauto) Y1) as (i2 & K & Y2). exists i2. split; auto.
      apply ok2_S1. cbn [parse_value]. stp R1. cbn [fst]. rewrite O. unfold parse_object. stp (Y_un_next i1 o). exact K.
    - intros o c O C F i rest H. cbn in H. destruct (Y_cons_un _ _ _ H) as (i1 & R1 & Y1 & U1). nxt Y1 i2 R2 Y2.
      assert (A : arun (true, un i1 o) [] EOI (true, i2)).
      { apply ar_end. unfold array_gen. stp (Y_un_next i1 o). stp R2. rewrite C. apply ok2_ret. }
      exists i2. split; auto. apply ok2_S1. cbn [parse_value]. stp R1. cbn [fst]. rewrite O. stp (arun_collect _ _ _ _ A). apply ok2_ret.
    - intros o ts l O HD _ IH F i rest H. inversion F; subst. cbn in H. destruct (Y_cons_un _ _ _ H) as (i1 & R1 & Y1 & U1).
      destruct (IH ltac:(auto)) as [_ K]. destruct (K (un i1 o) rest o HD U1) as (st' & A & Y2). exists (snd st'). split; auto.
      apply ok2_S1. cbn [parse_value]. stp R1. cbn [fst]. rewrite O. stp (arun_collect _ _ _ _ A). apply ok2_ret.
    (* members *)
    - intros seen k colon ts t c N C G IH CB F obj i rest SE H. inversion F as [|? ? F1 F2]; subst. inversion F2 as [|? ? F3 F4]; subst.
      apply Forall_app in F4 as [F4 F5]. destruct (gval_ne _ _ _ G) as (t1 & ts1 & ->).
      cbn [app] in H. rewrite <- app_assoc in H. cbn [app] in H.
      assert (N' : ~ In k (map fst obj)) by (intros X; apply N; auto).
      destruct (obj_key obj i k colon t1 _ N' C H) as (i3 & Y3 & K).
      destruct (obj_value obj k i3 (t1 :: ts1) rest t c N' (IH F4) Y3) as (i5 & Y5 & K1 & _). exists i5. split; auto.
    - intros seen k colon ts t comma c _ N C G IH CM CB F obj i rest SE H. inversion F as [|? ? F1 F2]; subst. inversion F2 as [|? ? F3 F4]; subst.
      apply Forall_app in F4 as [F4 F5]. destruct (gval_ne _ _ _ G) as (t1 & ts1 & ->).
      cbn [app] in H. rewrite <- app_assoc in H. cbn [app] in H.
      assert (N' : ~ In k (map fst obj)) by (intros X; apply N; auto).
      destruct (obj_key obj i k colon t1 _ N' C H) as (i3 & Y3 & K).
      destruct (obj_value obj k i3 (t1 :: ts1) (c :: rest) t comma N' (IH F4) Y3) as (i5 & Y5 & _ & K1).
      destruct (obj_close (obj ++ [(k, value_of t)]) i5 c rest CB Y5) as (i6 & Y6 & K2). exists i6. split; auto.
    - intros seen k colon ts t comma ts' m N C G IH CM _ IHm F obj i rest SE H. inversion F as [|? ? F1 F2]; subst. inversion F2 as [|? ? F3 F4]; subst.
      apply Forall_app in F4 as [F4 F5]. inversion F5; subst. destruct (gval_ne _ _ _ G) as (t1 & ts1 & ->).
      cbn [app] in H. rewrite <- app_assoc in H. cbn [app] in H.
      assert (N' : ~ In k (map fst obj)) by (intros X; apply N; auto).
      destruct (obj_key obj i k colon t1 _ N' C H) as (i3 & Y3 & K).
      destruct (obj_value obj k i3 (t1 :: ts1) (ts' ++ rest) t comma N' (IH F4) Y3) as (i5 & Y5 & _ & K1).
      destruct (IHm ltac:(auto) (obj ++ [(k, value_of t)]) i5 rest) as (i6 & K2 & Y6); auto.
      { intros k' I'. rewrite map_app in I'. apply in_app_iff in I' as [I'|[<-|[]]]; [right; auto|left; auto]. }
      exists i6. split; auto. rewrite <- app_assoc in K2. cbn [app] in K2. apply K, K1; auto.
    (* elements *)
    - intros ts t c G IH C F. apply Forall_app in F as [F1 F2]. specialize (IH F1). destruct (gval_ne _ _ _ G) as (t1 & ts1 & ->).
      assert (CL : forall i3 rest, Y i3 (c :: rest) -> exists st', arun (false, i3) [] EOI st' /\ Y (snd st') rest).
      { intros i3 rest H. nxt H i4 R4 Y4. exists (false, i4). split; auto. apply ar_end. unfold array_gen. stp R4. rewrite C. apply ok2_ret. }
      split.
      + intros i rest _ v i0 V H. rewrite <- app_assoc in H. cbn [app] in H. nxt H i1 R1 Y1. destruct (Y_cons_un _ _ _ Y1) as (i2 & R2 & Y2 & U2).
        destruct (IH _ _ U2) as (i3 & R3 & Y3). destruct (CL i3 rest Y3) as (st' & A & Y4). exists st'. split; auto.
        eapply ar_step; [|exact A]. unfold array_gen. stp R1. rewrite V. stp R2. stp R3. apply ok2_ret.
      + intros i rest o HD H. rewrite <- app_assoc in H. cbn [app] in H. nxt H i1 R1 Y1. destruct (Y_cons_un _ _ _ Y1) as (i2 & R2 & Y2 & U2).
        destruct (IH _ _ U2) as (i3 & R3 & Y3). destruct (CL i3 rest Y3) as (st' & A & Y4). exists st'. split; auto.
        eapply ar_step; [|exact A]. unfold array_gen. stp R1. stp R2. cbn in HD. 
        eapply ok2_eq with (g := fun d m => let! (r, i3) := pv d m (un i2 t1) in
              match r with
              | (_, Some e) => Done ((zv, Some e), (true, i3))
              | (value, None) => Done ((value, None), (false, i3))
              end). { intros. destruct (ttyp t1); try reflexivity. congruence. }
        stp R3. apply ok2_ret.
    - intros ts t comma ts' l G IH C G' IH' F. apply Forall_app in F as [F1 F2]. inversion F2; subst. specialize (IH F1). destruct (IH' ltac:(auto)) as [TL _].
      destruct (gval_ne _ _ _ G) as (t1 & ts1 & ->).
      assert (CL : forall i3 rest, Y i3 (comma :: ts' ++ rest) -> exists st', arun (false, i3) (map value_of l) EOI st' /\ Y (snd st') rest).
      { intros i3 rest H. destruct (Y_cons _ _ _ H) as (i4 & R4 & Y4). eapply TL; eauto. }
      split.
      + intros i rest _ v i0 V H. rewrite <- app_assoc in H. cbn [app] in H. nxt H i1 R1 Y1. destruct (Y_cons_un _ _ _ Y1) as (i2 & R2 & Y2 & U2).
        destruct (IH _ _ U2) as (i3 & R3 & Y3). destruct (CL i3 rest Y3) as (st' & A & Y4). exists st'. split; auto.
        cbn [map]. eapply ar_step; [|exact A]. unfold array_gen. stp R1. rewrite V. stp R2. stp R3. apply ok2_ret.
      + intros i rest o HD H. rewrite <- app_assoc in H. cbn [app] in H. nxt H i1 R1 Y1. destruct (Y_cons_un _ _ _ Y1) as (i2 & R2 & Y2 & U2).
        destruct (IH _ _ U2) as (i3 & R3 & Y3). destruct (CL i3 rest Y3) as (st' & A & Y4). exists st'. split; auto.
        cbn [map]. eapply ar_step; [|exact A]. unfold array_gen. stp R1. stp R2. cbn in HD. 
        eapply ok2_eq with (g := fun d m => let! (r, i3) := pv d m (un i2 t1) in
              match r with
              | (_, Some e) => Done ((zv, Some e), (true, i3))
              | (value, None) => Done ((value, None), (false, i3))
              end). { intros. destruct (ttyp t1); try reflexivity. congruence. }
        stp R3. apply ok2_ret.
  Qed.

  (** ** Whatever the tokens, the parser returns; without an error only for what the grammar allows *)
  Lemma eoi_or_ne mine e0 : mine <> EOI -> eoi_or mine e0 <> EOI.
  Proof. destruct e0; cbn; congruence. Qed.
  Definition verr (r : ret value) : Prop := exists e', e' <> EOI /\ r = (zv, Some e').
  Definition vgood ts r i' : Prop :=
    verr r \/ exists pre t ts', ts = pre ++ ts' /\ gval false pre t /\ r = (value_of t, None) /\ Y i' ts'.
  Definition mgood seen obj ts r i' : Prop :=
    verr r \/ exists pre m ts', ts = pre ++ ts' /\
      (gmembers false seen pre m \/ exists c, pre = [c] /\ ttyp c = tCBrace /\ m = []) /\
      r = (mkV TObject (of4t (obj ++ member_vals m)), None) /\ Y i' ts'.
  Definition agood ts (vs : list value) (e' : err) (st' : bool * I) : Prop :=
    e' = EOI -> exists pre l ts', ts = pre ++ ts' /\ vs = map value_of l /\ Y (snd st') ts' /\
      ((l = [] /\ exists c, pre = [c] /\ ttyp c = tCBracket) \/ exists cm pre', pre = cm :: pre' /\ ttyp cm = tComma /\ gelems false pre' l).

  Ltac bad := left; eexists; split; [|reflexivity]; try (apply eoi_or_ne); discriminate.
  Definition Pn (n : nat) : Prop := forall ts i, 0 < length ts <= n -> Forall tok_ok ts -> Y i ts ->
    exists r i', ok2 (fun d m => pv d m i) r i' /\ vgood ts r i'.

  Lemma obj_total n : Pn n -> forall ts, length ts <= n -> Forall tok_ok ts -> forall seen obj i,
    (forall k, In k seen <-> In k (map fst obj)) -> Y i ts ->
    exists r i', ok2 (fun d f => obj_loop nx un (pv d) f obj i) r i' /\ mgood seen obj ts r i'.
  Proof.
    intros HP ts. remember (length ts) as k eqn:Ek. revert ts Ek. induction k as [k IH] using lt_wf_ind. intros ts -> L F seen obj i SE H.
    destruct ts as [|key ts].
    { destruct (Y_nil _ H) as (i1 & R1 & Y1). eexists _, i1. split; [apply ok2_S; cbn [obj_loop]; stp R1; apply ok2_ret|bad]. }
    inversion F as [|? ? F1 F2]; subst. nxt H i1 R1 Y1.
    destruct (ttyp key) eqn:TK; try (eexists _, i1; split; [apply ok2_S; cbn [obj_loop]; stp R1; rewrite TK; apply ok2_ret|bad]).
    - eexists _, i1. split; [apply ok2_S; cbn [obj_loop]; stp R1; rewrite TK; apply ok2_ret|]. right. exists [key], [], ts.
      split; auto. split; [right; eauto|]. split; auto. cbn. rewrite app_nil_r. reflexivity.
    - destruct (in_dec (list_eq_dec Z.eq_dec) (tval key) (map fst obj)) as [D|D].
      { destruct (mget str_eqb obj (tval key)) as [v|] eqn:G.
        - eexists _, i1. split; [apply ok2_S; cbn [obj_loop]; stp R1; rewrite TK, G; apply ok2_ret|bad].
        - apply (mget_none str_eqb str_eq_ok) in G. contradiction. }
      destruct ts as [|colon ts].
      { destruct (Y_nil _ Y1) as (i2 & R2 & Y2). eexists _, i2. split; [apply ok2_S; cbn [obj_loop]; stp R1; rewrite TK, mget_absent by auto; stp R2; apply ok2_ret|bad]. }
      nxt Y1 i2 R2 Y2. inversion F2 as [|? ? F3 F4]; subst.
      destruct (ttyp colon) eqn:TC; try (eexists _, i2; split; [apply ok2_S; cbn [obj_loop]; stp R1; rewrite TK, mget_absent by auto; stp R2; rewrite TC; apply ok2_ret|bad]).
      destruct ts as [|t1 ts].
      { destruct (Y_nil _ Y2) as (i3 & R3 & Y3). eexists _, i3. split; [apply ok2_S; cbn [obj_loop]; stp R1; rewrite TK, mget_absent by auto; stp R2; rewrite TC; stp R3; apply ok2_ret|bad]. }
      assert (EK : key = mkTok tString (tval key)) by (destruct key; cbn in *; congruence).
      rewrite EK in H. destruct (obj_key obj i (tval key) colon t1 ts D TC H) as (i3 & Y3 & K).
      cbn [length] in L. destruct (HP (t1 :: ts) i3 ltac:(cbn; lia) F4 Y3) as (r & i4 & R4 & G). destruct G as [(e' & NE & ->)|(pre & t & ts' & ET & G & -> & Y4)].
      { eexists _, i4. split; [apply K; unfold obj_tail; stp R4; apply ok2_ret|]. left. exists e'. auto. }
      destruct ts' as [|c ts'].
      { destruct (Y_nil _ Y4) as (i5 & R5 & Y5). eexists _, i5. split; [apply K; unfold obj_tail; stp R4; stp R5; apply ok2_ret|bad]. }
      nxt Y4 i5 R5 Y5.
      destruct (ttyp c) eqn:TT; try (eexists _, i5; split; [apply K; unfold obj_tail; stp R4; stp R5; rewrite TT; apply ok2_ret|bad]).
      + eexists _, i5. split; [apply K; unfold obj_tail; stp R4; stp R5; rewrite TT, mset_absent by auto; apply ok2_ret|]. right.
        exists (key :: colon :: pre ++ [c]), [(tval key, t)], ts'. split; [|split; [left|split; auto]].
        * cbn. rewrite <- app_assoc. cbn. congruence.
        * rewrite EK. cbn [tval]. apply gm_last; auto. rewrite SE. auto.
      + assert (LT : length ts' < length (key :: colon :: t1 :: ts)) by (rewrite ET; cbn [length]; rewrite app_length; cbn; lia).
        rewrite ET in F4. apply Forall_app in F4 as [F4 F5]. inversion F5; subst.
        destruct (IH (length ts') LT ts' eq_refl ltac:(cbn in *; lia) ltac:(auto) (tval key :: seen) (obj ++ [(tval key, value_of t)]) i5) as (r & i6 & R6 & G6); auto.
        { intros k. rewrite map_app, in_app_iff. cbn. rewrite SE. tauto. }
        exists r, i6. split; [apply K; unfold obj_tail; stp R4; stp R5; rewrite TT, mset_absent by auto; exact R6|].
        destruct G6 as [V|(pre2 & m & ts2 & E2 & G2 & -> & Y6)]; [left; auto|]. right.
        exists (key :: colon :: pre ++ c :: pre2), ((tval key, t) :: m), ts2. split; [|split; [left|split; auto]].
        * cbn. rewrite <- app_assoc. cbn. rewrite <- E2. congruence.
        * rewrite EK. cbn [tval]. destruct G2 as [G2|(c2 & -> & C2 & ->)].
          -- apply gm_more; auto. rewrite SE; auto.
          -- apply gm_comma; auto. rewrite SE; auto.
        * rewrite <- app_assoc. reflexivity.
  Qed.

  Lemma arr_total n : Pn n -> forall ts, length ts <= n -> Forall tok_ok ts -> forall i, Y i ts ->
    exists vs e' st', arun (false, i) vs e' st' /\ agood ts vs e' st'.
  Proof.
    intros HP ts. remember (length ts) as k eqn:Ek. revert ts Ek. induction k as [k IH] using lt_wf_ind. intros ts -> L F i H.
    assert (BAD : forall e' st', e' <> EOI -> ok2 (fun d m => array_gen nx un (pv d) m (false, i)) (zv, Some e') st' ->
      exists vs e' st', arun (false, i) vs e' st' /\ agood ts vs e' st').
    { intros e' st' NE O. exists [], e', st'. split; [apply ar_end; auto|]. intros ->. congruence. }
    destruct ts as [|cm ts].
    { destruct (Y_nil _ H) as (i1 & R1 & Y1). apply (BAD (eoi_or errArrayRequiresCommaOrBracket e) (false, i1)); [apply eoi_or_ne; discriminate|].
      unfold array_gen. stp R1. apply ok2_ret. }
    nxt H i1 R1 Y1. inversion F as [|? ? F1 F2]; subst.
    destruct (ttyp cm) eqn:TT; try (apply (BAD errArrayRequiresCommaOrBracket (false, i1)); [discriminate|]; unfold array_gen; stp R1; rewrite TT; apply ok2_ret).
    - exists [], EOI, (false, i1). split; [apply ar_end; unfold array_gen; stp R1; rewrite TT; apply ok2_ret|]. intros _. exists [cm], [], ts.
      split; auto. split; auto. split; auto. left. eauto.
    - destruct ts as [|t1 ts].
      { destruct (Y_nil _ Y1) as (i2 & R2 & Y2). apply (BAD (eoi_or errArrayRequiresValue e) (false, i2)); [apply eoi_or_ne; discriminate|].
        unfold array_gen. stp R1. rewrite TT. stp R2. apply ok2_ret. }
      destruct (Y_cons_un _ _ _ Y1) as (i2 & R2 & Y2 & U2). cbn [length] in L.
      destruct (HP (t1 :: ts) _ ltac:(cbn; lia) F2 U2) as (r & i3 & R3 & G). destruct G as [(e' & NE & ->)|(pre & t & ts' & ET & G & -> & Y3)].
      { apply (BAD e' (false, i3)); auto. unfold array_gen. stp R1. rewrite TT. stp R2. stp R3. apply ok2_ret. }
      assert (LT : length ts' < length (cm :: t1 :: ts)) by (rewrite ET; cbn [length]; rewrite app_length; cbn; lia).
      pose proof F2 as F2'. rewrite ET in F2'. apply Forall_app in F2' as [_ F5].
      destruct (IH (length ts') LT ts' eq_refl ltac:(cbn in *; lia) F5 i3 Y3) as (vs & e' & st' & A & G2).
      exists (value_of t :: vs), e', st'. split.
      { eapply ar_step; [|exact A]. unfold array_gen. stp R1. rewrite TT. stp R2. stp R3. apply ok2_ret. }
      intros EE. destruct (G2 EE) as (pre2 & l & ts2 & E2 & -> & Y4 & G3).
      exists (cm :: pre ++ pre2), (t :: l), ts2. split; [cbn; rewrite <- app_assoc, <- E2; congruence|]. split; auto. split; auto.
      right. exists cm, (pre ++ pre2). split; auto. split; auto. destruct G3 as [(-> & c & -> & C)|(cm2 & pre3 & -> & C2 & G3)].
      + apply ge_last; auto.
      + apply ge_more; auto.
  Qed.

  (** the whole array, opening bracket included *)
  Definition awhole ts (vs : list value) (e' : err) (st' : bool * I) : Prop :=
    e' = EOI -> exists pre l ts', ts = pre ++ ts' /\ vs = map value_of l /\ Y (snd st') ts' /\ gval false pre (JArr l).
  Lemma arr_first n : Pn n -> forall o ts, length ts <= n -> Forall tok_ok ts -> ttyp o = tOBracket -> forall i, Y i (o :: ts) ->
    exists vs e' st', arun (true, i) vs e' st' /\ awhole (o :: ts) vs e' st'.
  Proof.
    intros HP o ts L F TO i H. nxt H i1 R1 Y1.
    assert (BAD : forall e' st', e' <> EOI -> ok2 (fun d m => array_gen nx un (pv d) m (true, i)) (zv, Some e') st' ->
      exists vs e' st', arun (true, i) vs e' st' /\ awhole (o :: ts) vs e' st').
    { intros e' st' NE O. exists [], e', st'. split; [apply ar_end; auto|]. intros ->. congruence. }
    destruct ts as [|t1 ts].
    { destruct (Y_nil _ Y1) as (i2 & R2 & Y2). apply (BAD (eoi_or errArrayRequiresValueOrBracket e) (true, i2)); [apply eoi_or_ne; discriminate|].
      unfold array_gen. stp R1. stp R2. apply ok2_ret. }
    destruct (Y_cons_un _ _ _ Y1) as (i2 & R2 & Y2 & U2).
    assert (D : ttyp t1 = tCBracket \/ ttyp t1 <> tCBracket) by (destruct (ttyp t1); auto; right; discriminate). destruct D as [D|D].
    { exists [], EOI, (true, i2). split; [apply ar_end; unfold array_gen; stp R1; stp R2; rewrite D; apply ok2_ret|]. intros _.
      exists [o; t1], [], ts. split; auto. split; auto. split; auto. apply g_arr0; auto. }
    assert (GEN : forall b j, ok2 (fun d m => let! (r, i3) := pv d m (un i2 t1) in
              match r with
              | (_, Some e) => Done ((zv, Some e), (true, i3))
              | (value, None) => Done ((value, None), (false, i3))
              end) b j -> ok2 (fun d m => array_gen nx un (pv d) m (true, i)) b j).
    { intros b j K. unfold array_gen. stp R1. stp R2. eapply ok2_eq; [|exact K]. intros. destruct (ttyp t1); try reflexivity. congruence. }
    destruct (HP (t1 :: ts) _ ltac:(cbn in *; lia) F U2) as (r & i3 & R3 & G). destruct G as [(e' & NE & ->)|(pre & t & ts' & ET & G & -> & Y3)].
    { apply (BAD e' (true, i3)); auto. apply GEN. stp R3. apply ok2_ret. }
    pose proof F as F2'. rewrite ET in F2'. apply Forall_app in F2' as [_ F5].
    assert (LT : length ts' <= n) by (rewrite ET, app_length in L; lia).
    destruct (arr_total n HP ts' LT F5 i3 Y3) as (vs & e' & st' & A & G2).
    exists (value_of t :: vs), e', st'. split. { eapply ar_step; [|exact A]. apply GEN. stp R3. apply ok2_ret. }
    intros EE. destruct (G2 EE) as (pre2 & l & ts2 & E2 & -> & Y4 & G3).
    exists (o :: pre ++ pre2), (t :: l), ts2. split; [cbn; rewrite <- app_assoc, <- E2; congruence|]. split; auto. split; auto.
    apply g_arr; auto.
    - destruct (gval_ne _ _ _ G) as (u & us & ->). inversion ET; subst. cbn. auto.
    - destruct G3 as [(-> & c & -> & C)|(cm2 & pre3 & -> & C2 & G3)]; [apply ge_last; auto|apply ge_more; auto].
  Qed.

  Lemma value_total n : Pn n.
  Proof.
    induction n as [|n IH]; intros ts i L F H; [lia|]. destruct ts as [|t1 ts]; [cbn in L; lia|]. inversion F as [|? ? F1 F2]; subst.
    destruct (Y_cons_un _ _ _ H) as (i1 & R1 & Y1 & U1).
    assert (STRAY : stray (ttyp t1) -> exists r i', ok2 (fun d m => pv d m i) r i' /\ vgood (t1 :: ts) r i').
    { intros ST. eexists _, i1. split.
      - apply ok2_S1. cbn [parse_value]. stp R1. cbn [fst]. eapply ok2_eq with (g := fun _ _ => Done ((zv, None), i1)); [|apply ok2_ret].
        intros. destruct ST as [->|[->|[->| ->]]]; reflexivity.
      - right. exists [t1], JInvalid, ts. split; auto. split; [|split; auto]. destruct t1. apply g_stray; auto. }
    destruct (ttyp t1) eqn:TT; try (apply STRAY; unfold stray; tauto); clear STRAY.
    - destruct (arr_first n IH t1 ts ltac:(cbn in L; lia) F2 TT _ U1) as (vs & e' & st' & A & G).
      pose proof (arun_collect _ _ _ _ A) as C.
      assert (D : e' = EOI \/ e' <> EOI) by (destruct e'; auto; right; discriminate). destruct D as [D|D].
      + exists (mkV TArray (of4u vs), None), (snd st'). split.
        * apply ok2_S1. cbn [parse_value]. stp R1. cbn [fst]. rewrite TT. stp C. subst e'. apply ok2_ret.
        * right. destruct (G D) as (pre & l & ts' & E1 & -> & Y3 & G3). exists pre, (JArr l), ts'. auto.
      + exists (zv, Some e'), (snd st'). split.
        * apply ok2_S1. cbn [parse_value]. stp R1. cbn [fst]. rewrite TT. stp C. destruct e'; try congruence; apply ok2_ret.
        * left. exists e'. auto.
    - destruct (obj_total n IH ts ltac:(cbn in L; lia) F2 [] [] i1 ltac:(cbn; tauto) Y1) as (r & i2 & R2 & G). exists r, i2. split.
      + apply ok2_S1. cbn [parse_value]. stp R1. cbn [fst]. rewrite TT. unfold parse_object. stp (Y_un_next i1 t1). exact R2.
      + destruct G as [V|(pre & m & ts' & E1 & G & -> & Y3)]; [left; auto|]. right. exists (t1 :: pre), (JObj m), ts'.
        split; [cbn; congruence|]. split; auto. destruct G as [G|(c & -> & C & ->)]; [apply g_obj; auto|apply g_obj0; auto].
    - eexists _, i1. split; [apply ok2_S1; cbn [parse_value]; stp R1; cbn [fst]; rewrite TT; apply ok2_ret|]. right.
      exists [t1], (JStr (tval t1)), ts. split; auto. split; auto. destruct t1; cbn in TT; subst. apply g_str.
    - eexists _, i1. split.
      + apply ok2_S1. cbn [parse_value]. stp R1. cbn [fst]. rewrite TT. cbn [numberToValue]. unfold number_match. unfold tok_ok in F1. rewrite TT in F1.
        replace (existsb Decimal.is_digit (tval t1)) with true by (symmetry; exact F1). apply ok2_ret.
      + right. exists [t1], (JNum (tval t1)), ts. split; auto. split; auto. destruct t1; cbn in TT; subst. apply g_num.
    - eexists _, i1. split; [apply ok2_S1; cbn [parse_value]; stp R1; cbn [fst]; rewrite TT; apply ok2_ret|]. right.
      unfold tok_ok in F1. rewrite TT in F1. destruct F1 as [-> | ->].
      + exists [tokTrue], (JBool true), ts. split; auto. split; auto. apply g_true.
      + exists [tokFalse], (JBool false), ts. split; auto. split; auto. apply g_false.
    - eexists _, i1. split; [apply ok2_S1; cbn [parse_value]; stp R1; cbn [fst]; rewrite TT; apply ok2_ret|]. right.
      exists [t1], JNull, ts. split; auto. split; auto. destruct t1; cbn in TT; subst. apply g_null.
  Qed.
End P.
