(** C120: slices of arguments that are kept. *)
From Coq Require Import ZifyNat.
From Verif Require Import Base Slice Iter IterGen IterSpec IterProofs IterGenProofs SliceMem SliceMemProofs FuncsFn Kept KeptSpec KeptProofs.
Open Scope nat_scope.

(** ** And, Or, Compose of a slice of functions
    A call is the conjunction of the functions in the slice, each being what the slice holds when its turn comes. *)
Theorem C120_and {T W} (slot : W -> nat -> T -> W -> bool * W) n t w : exists fs,
  length fs = n /\ as_found slot fn_and t w fs /\ (forall gs, length gs = n -> as_found slot fn_and t w gs -> gs = fs) /\
  kept_and slot n t w = fn_and fs t w.
Proof.
  destruct (and_found slot n 0 true t w) as (fs & L & E & F). exists fs. split; [exact L|]. split; [exact F|]. split; [|exact E].
  intros gs Lg G. eapply as_found_unique; [exact G|exact F|etransitivity; [exact Lg|symmetry; exact L]].
Qed.
Print Assumptions C120_and.
Theorem C120_or {T W} (slot : W -> nat -> T -> W -> bool * W) n t w : exists fs,
  length fs = n /\ as_found slot fn_or t w fs /\ (forall gs, length gs = n -> as_found slot fn_or t w gs -> gs = fs) /\
  kept_or slot n t w = fn_or fs t w.
Proof.
  destruct (or_found slot n 0 true t w) as (fs & L & E & F). exists fs. split; [exact L|]. split; [exact F|]. split; [|exact E].
  intros gs Lg G. eapply as_found_unique; [exact G|exact F|etransitivity; [exact Lg|symmetry; exact L]].
Qed.
Print Assumptions C120_or.
Theorem C120_compose {T W} (f0 : T -> W -> T * W) slot n t w : exists fs,
  length fs = n /\ as_found slot (fn_compose f0) t w fs /\ (forall gs, length gs = n -> as_found slot (fn_compose f0) t w gs -> gs = fs) /\
  kept_compose f0 slot n t w = fn_compose f0 fs t w.
Proof.
  unfold kept_compose. destruct (f0 t w) as [t' w'] eqn:E0. destruct (compose_found slot n 0 t' w') as (fs & L & E & F). exists fs. split; [exact L|].
  assert (A : as_found slot (fn_compose f0) t w fs).
  { intros i f N. unfold fn_compose. rewrite E0. exact (F i f N). }
  split; [exact A|]. split; [|unfold fn_compose; rewrite E0; exact E].
  intros gs Lg G. eapply as_found_unique; [exact G|exact A|etransitivity; [exact Lg|symmetry; exact L]].
Qed.
Print Assumptions C120_compose.

(** Functions that leave the slice alone: a call does what And, Or or Compose of its present elements would do. *)
Section Alone.
  Context {T W R : Type}.
  Lemma found_alone (slot : W -> nat -> T -> W -> R * W) n (call : list (T -> W -> R * W) -> T -> W -> R * W) t w :
    (forall fs w', (forall f, In f fs -> forall t x j, slot (snd (f t x)) j = slot x j) -> forall j, slot (snd (call fs t w')) j = slot w' j) ->
    (forall i t x j, slot (snd (slot w i t x)) j = slot x j) ->
    as_found slot call t w (map (slot w) (seq 0 n)).
  Proof.
    intros K A i f N. rewrite nth_error_map in N. destruct (nth_error (seq 0 n) i) as [j|] eqn:Ej; [|discriminate]. cbn in N. injection N as <-.
    pose proof (nth_error_nth _ _ 0 Ej) as Ek. rewrite seq_nth in Ek by (rewrite <- (seq_length n 0); apply nth_error_Some; congruence).
    cbn in Ek. subst j. rewrite K; [reflexivity|]. intros f I.
    assert (I' : In f (map (slot w) (seq 0 n))). { rewrite <- (firstn_skipn i). apply in_or_app. left. exact I. }
    apply in_map_iff in I' as (j & <- & _). intros t' x j'. apply A.
  Qed.
End Alone.
Section Unchanged.
  Context {T W : Type}.
  Variables (n : nat) (t : T) (w : W).
  Lemma and_keeps (slot : W -> nat -> T -> W -> bool * W) fs : forall res w', (forall f, In f fs -> forall t x j, slot (snd (f t x)) j = slot x j) ->
    forall j, slot (snd (and_loop fs res t w')) j = slot w' j.
  Proof.
    induction fs as [|f fs IH]; intros res w' A j; [reflexivity|]. cbn [and_loop]. pose proof (A f (or_introl eq_refl) t w' j) as Af. destruct (f t w') as [b w1] eqn:Ef. cbn [snd] in Af.
    destruct b; cbn [negb]; [|exact Af]. rewrite IH; [exact Af|]. intros g I. apply A. right. exact I.
  Qed.
  Lemma or_keeps (slot : W -> nat -> T -> W -> bool * W) fs : forall res w', (forall f, In f fs -> forall t x j, slot (snd (f t x)) j = slot x j) ->
    forall j, slot (snd (or_loop fs res t w')) j = slot w' j.
  Proof.
    induction fs as [|f fs IH]; intros res w' A j; [reflexivity|]. cbn [or_loop]. pose proof (A f (or_introl eq_refl) t w' j) as Af. destruct (f t w') as [b w1] eqn:Ef. cbn [snd] in Af.
    destruct b; [exact Af|]. rewrite IH; [exact Af|]. intros g I. apply A. right. exact I.
  Qed.
  Lemma compose_keeps (slot : W -> nat -> T -> W -> T * W) (fs : list (T -> W -> T * W)) : forall t' w', (forall f, In f fs -> forall t x j, slot (snd (f t x)) j = slot x j) ->
    forall j, slot (snd (compose_loop t' fs w')) j = slot w' j.
  Proof.
    induction fs as [|f fs IH]; intros t' w' A j; [reflexivity|]. cbn [compose_loop]. pose proof (A f (or_introl eq_refl) t' w' j) as Af. destruct (f t' w') as [b w1] eqn:Ef. cbn [snd] in Af.
    rewrite IH; [exact Af|]. intros g I. apply A. right. exact I.
  Qed.
  Theorem C120_and_unchanged (slot : W -> nat -> T -> W -> bool * W) : (forall i t x j, slot (snd (slot w i t x)) j = slot x j) ->
    kept_and slot n t w = fn_and (map (slot w) (seq 0 n)) t w.
  Proof.
    intros A. destruct (C120_and slot n t w) as (fs & L & F & U & ->). f_equal. symmetry. apply U; [rewrite map_length; apply seq_length|].
    apply found_alone; [|exact A]. intros gs w' B. apply and_keeps. exact B.
  Qed.
  Theorem C120_or_unchanged (slot : W -> nat -> T -> W -> bool * W) : (forall i t x j, slot (snd (slot w i t x)) j = slot x j) ->
    kept_or slot n t w = fn_or (map (slot w) (seq 0 n)) t w.
  Proof.
    intros A. destruct (C120_or slot n t w) as (fs & L & F & U & ->). f_equal. symmetry. apply U; [rewrite map_length; apply seq_length|].
    apply found_alone; [|exact A]. intros gs w' B. apply or_keeps. exact B.
  Qed.
  Theorem C120_compose_unchanged (f0 : T -> W -> T * W) (slot : W -> nat -> T -> W -> T * W) :
    (forall t x j, slot (snd (f0 t x)) j = slot x j) -> (forall i t x j, slot (snd (slot w i t x)) j = slot x j) ->
    kept_compose f0 slot n t w = fn_compose f0 (map (slot w) (seq 0 n)) t w.
  Proof.
    intros A0 A. destruct (C120_compose f0 slot n t w) as (fs & L & F & U & ->). f_equal. symmetry. apply U; [rewrite map_length; apply seq_length|].
    apply found_alone; [|exact A]. intros gs w' B j. unfold fn_compose. pose proof (A0 t w' j) as A1. destruct (f0 t w') as [t' w1]. cbn [snd] in A1.
    rewrite compose_keeps by exact B. exact A1.
  Qed.
End Unchanged.
Print Assumptions C120_and_unchanged.
Print Assumptions C120_or_unchanged.
Print Assumptions C120_compose_unchanged.

(** Finding: so what And(s...) returned is not fixed by the functions it was given: with w[i] telling what the function in s[i] answers,
    storing another function into s changes its answers; the same for Or, and for Compose. *)
Theorem C120_rebound_refuted :
  let answer (w : list bool) i (t : nat) (x : list bool) := (nth i w false, x) in
  let add (w : list nat) i (t : nat) (x : list nat) := (t + nth i w 0, x) in
  (fst (kept_and answer 2 0 [true; true]) = true /\ fst (kept_and answer 2 0 [true; false]) = false) /\
  (fst (kept_or answer 2 0 [false; false]) = false /\ fst (kept_or answer 2 0 [false; true]) = true) /\
  (fst (kept_compose (fun t x => (t, x)) add 2 5 [1; 2]) = 8 /\ fst (kept_compose (fun t x => (t, x)) add 2 5 [1; 10]) = 16).
Proof. repeat split. Qed.
Print Assumptions C120_rebound_refuted.

(** In(s...) looks at what is in s when it is called. *)
Theorem C120_in {T} (eq : T -> T -> bool) (m : mem T) val t : valid m val -> kept_in eq val m t = Done (existsb (eq t) (contents m val)).
Proof. intros V. unfold kept_in. rewrite in_live_spec by (auto; lia). reflexivity. Qed.
Print Assumptions C120_in.

(** ** InfiniteIterGen
    The slice has the elements v1..vk and one more when InfiniteIterGen is called: the last is the seed for good; the others are read when
    they are delivered, so changes made to them until then are delivered; then f(seed), f(f(seed)), ... for ever. *)
Theorem C120_infinite {T} {ZT : Zero T} (m0 : mem T) (env : nat -> mem T) (f : T -> T) s k seed :
  valid m0 s -> (forall c, valid (env c) s) -> slen s = S k -> nth_error (contents m0 s) k = Some seed ->
  exists init vs, kept_infinite_init m0 s = Done init /\
    length vs = k /\ (forall i v, nth_error vs i = Some v -> nth_error (contents (env i) s) i = Some v) /\
    forall n, exists st, emits (next (kept_infinite env f)) (ofIter (init, 0)) (vs ++ map (fun i => Nat.iter (S i) f seed) (seq 0 n)) st.
Proof.
  intros V0 V L Sd. destruct (reslice_spec m0 s 0 k V0 ltac:(lia)) as (l & R & C & _ & Ll & _ & _).
  assert (G : forall m : mem T, valid m s -> contents m l = firstn k (contents m s) /\ valid m l).
  { intros m Vm. destruct (reslice_spec m s 0 k Vm ltac:(lia)) as (s2 & R2 & C2 & V2 & _). assert (s2 = l) by congruence. subst s2. rewrite Nat.sub_0_r in C2. auto. }
  destruct (live_values env f l k (fun c => proj2 (G _ (V c))) ltac:(lia)) as (vs & Lv & N).
  exists (l, seed), vs. split; [|split; [exact Lv|split]].
  - unfold kept_infinite_init. rewrite L. cbn [Nat.ltb Nat.leb]. replace (S k - 1) with k by lia. rewrite R. cbn [obind]. rewrite (sget_contents _ _ _ _ Sd). reflexivity.
  - intros i v Ni. pose proof (N i v Ni) as X. rewrite (proj1 (G _ (V i))) in X. rewrite nth_error_firstn' in X. destruct (i <? k); [exact X|discriminate].
  - intros n. destruct (kept_infinite_lits env f seed n vs l 0 (fun c => proj2 (G _ (V c))) ltac:(lia) N) as [st E]. exists (ofIter st). apply ofIter_emits. exact E.
Qed.
Print Assumptions C120_infinite.
Theorem C120_infinite_unseeded {T} {ZT : Zero T} (m0 : mem T) (env : nat -> mem T) (f : T -> T) s n : slen s = 0 ->
  kept_infinite_init m0 s = Done (None, zv) /\
  exists st, emits (next (kept_infinite env f)) (ofIter (None, zv, 0)) (map (fun i => Nat.iter (S i) f zv) (seq 0 n)) st.
Proof.
  intros L. split; [unfold kept_infinite_init; rewrite L; reflexivity|].
  destruct (kept_infinite_tail env f None zv n eq_refl 0) as [st E]. exists (ofIter st). apply ofIter_emits. exact E.
Qed.
Print Assumptions C120_infinite_unseeded.
(** Finding: the literals can be changed after the call, the seed cannot: s = [1, 2, 3], f adds 10; s becomes [7, 8, 9] before the first
    call of Next, and [7, 5, 9] before the second. *)
Theorem C120_infinite_mixed_refuted :
  let env c := nth c [[[7; 8; 9]]; [[7; 5; 9]]] [[0; 0; 0]] in
  let s := Some (Hdr 0 0 3 3) in
  exists init, kept_infinite_init [[1; 2; 3]] s = Done init /\ exists st, emits (next (kept_infinite env (Nat.add 10))) (ofIter (init, 0)) [7; 5; 13; 23] st.
Proof.
  cbn zeta. eexists. split; [reflexivity|]. eexists. repeat (econstructor; [exists 0; intros m _; reflexivity|]). constructor.
Qed.
Print Assumptions C120_infinite_mixed_refuted.

(** ** Concat
    The iterators one after the other, each taken from the slice when the one before has ended; what is stored into the slice at or before
    the iterator being read has no effect. *)
Theorem C120_concat {H T} {ZT : Zero T} (slot : H -> nat -> option (stepfn H T)) n h l e h' : found_run slot n 0 h l e h' ->
  yields (next (kept_concat slot n)) (ofIter (kept_concat_init h)) l e /\
  exists st1 st2, emits (next (kept_concat slot n)) (ofIter (kept_concat_init h)) l (ofIter st1) /\
    returns (next (kept_concat slot n)) (ofIter st1) (zv, Some e) (dead st2 e) /\ snd st2 = h'.
Proof.
  intros R. pose proof (cyields_spec slot n _ _ _ _ (live_yields slot n 0 h l e h' R (Nat.le_0_l n))) as (st1 & st2 & E & F & Hh).
  split; [eapply ofIter_yields; eauto|]. exists st1, st2. split; [apply ofIter_emits; exact E|]. split; [apply next_error; exact F|exact Hh].
Qed.
Print Assumptions C120_concat.
Theorem C120_concat_part {H T} {ZT : Zero T} (slot : H -> nat -> option (stepfn H T)) n h l : found_part slot n 0 h l ->
  exists st, emits (next (kept_concat slot n)) (ofIter (kept_concat_init h)) l (ofIter st).
Proof. intros R. destruct (cpart_spec slot n _ _ (live_part slot n 0 h l R)) as [st E]. exists st. apply ofIter_emits. exact E. Qed.
Print Assumptions C120_concat_part.
(** A slice that does not change: the sequence of C06. *)
Theorem C120_concat_unchanged {H T} (its : list (option (stepfn H T))) h l e h' :
  found_run (fun _ i => match nth_error its i with Some x => x | None => None end) (length its) 0 h l e h' <-> seq_run its h l e h'.
Proof. apply (found_fixed its h l e h' 0). lia. Qed.
Print Assumptions C120_concat_unchanged.

(** ** ErrorReader and ErrorWriter
    Read copies the bytes that are in the input when it is called, into p and nowhere else. *)
Theorem C120_error_reader input p e pos (m : mem Z) : valid m input -> valid m p -> pos + Nat.min (slen input) (slen p) <= slen input -> pos < slen input ->
  let k := Nat.min (slen input) (slen p) in
  exists m', error_read_mem input p e pos m = Done ((k, None), (pos + k, m')) /\
    contents m' p = firstn k (skipn pos (contents m input)) ++ skipn k (contents m p) /\ frame (cells_of p) m m'.
Proof.
  intros Vi Vp B Hp k. unfold error_read_mem. destruct (Nat.leb_spec (slen input) pos); [lia|]. fold k.
  destruct (reslice_spec m p 0 k Vp ltac:(unfold k; lia)) as (d & Rd & Cd & Vd & Ld & _ & Hd).
  destruct (reslice_spec m input pos (pos + k) Vi ltac:(unfold k in *; lia)) as (s & Rs & Cs & Vs & Ls & _ & _).
  rewrite Rd, Rs. cbn [obind]. eexists. split; [reflexivity|].
  destruct (scopy_spec m d s Vd Vs ltac:(lia)) as (CC & F & V').
  assert (FP : frame (cells_of p) m (scopy m d s)).
  { eapply frame_weaken; [|exact F]. intros a i _ I. destruct d as [hd|]; [|contradiction]. destruct (Hd hd eq_refl) as (h & -> & A1 & A2). cbn in I, Ld. cbn. unfold k in Ld. cbn in Ld. lia. }
  split; [|exact FP]. replace (pos + k - pos) with k in Cs by lia. replace (k - 0) with k in * by lia. 
  assert (X : contents (scopy m d s) d = firstn k (skipn pos (contents m input))).
  { rewrite CC, Cs, Ld. rewrite firstn_firstn, Nat.min_id. reflexivity. }
  rewrite <- X. clear X. destruct p as [h|].
  - destruct d as [hd|]; [|unfold reslice in Rd; destruct (_ && _); discriminate].
    destruct (Hd hd eq_refl) as (h0 & Eh & A1 & A2). injection Eh as <-. cbn [slen] in Ld. rewrite Nat.add_0_r in A2.
    apply nth_error_ext. intros i. rewrite contents_nth.
    pose proof (contents_length _ _ V') as Lc. cbn [slen] in Lc.
    destruct (Nat.lt_ge_cases i k) as [Hi|Hi].
    + rewrite nth_error_app1 by lia. rewrite contents_nth, A1, A2. assert (i < len h) by (unfold k in Hi; cbn [slen] in Hi; lia). destruct (Nat.ltb_spec i (len h)); [|lia]. destruct (Nat.ltb_spec i (len hd)); [reflexivity|lia].
    + rewrite nth_error_app2 by lia. rewrite nth_error_skipn'. replace (k + (i - length (contents (scopy m (Some hd) s) (Some hd)))) with i by lia.
      rewrite contents_nth. destruct (Nat.ltb_spec i (len h)); [|reflexivity].
      destruct F as (_ & _ & F). destruct Vp as (P1 & P2 & P3). apply F; [exact P1|]. cbn. lia.
  - assert (k = 0) by (unfold k; cbn; lia). rewrite H0 in *. destruct d as [hd|]; [destruct (Hd hd eq_refl) as (? & ? & _); discriminate|]. reflexivity.
Qed.
Print Assumptions C120_error_reader.
Theorem C120_error_reader_end input p e pos (m : mem Z) : slen input <= pos -> error_read_mem input p e pos m = Done ((0, Some e), (pos, m)).
Proof. intros L. unfold error_read_mem. destruct (Nat.leb_spec (slen input) pos); [reflexivity|lia]. Qed.
Print Assumptions C120_error_reader_end.

(** What a new ErrorWriter has accepted after any history of writes, whatever other code does to the rest of the memory: the first [count]
    bytes of what the slices contained when they were written. What Output returned at any time keeps its contents. *)
Lemma new_ok count m : let (m0, w0) := new_error_writer count m in ok_writer count (length m) m0 w0 /\ contents m0 w0 = [].
Proof.
  pose proof (smake_spec m 0 (Z.to_nat (Z.max 0 count))) as SP. unfold new_error_writer. 
  change (smake m 0 (Z.to_nat (Z.max 0 count))) with (m ++ [repeat zv (0 + (Z.to_nat (Z.max 0 count) - 0))], Some (Hdr (length m) 0 0 (0 + (Z.to_nat (Z.max 0 count) - 0)))) in *.
  destruct SP as (V & C & _). split; [|exact C]. split; [exact V|]. cbn [slen scap len cap arr off]. repeat split; lia.
Qed.
Theorem C120_error_writer ex count e m ps m' w' : writes_of ex count e (length m) (new_error_writer count m) ps (m', w') ->
  valid m' w' /\ contents m' w' = firstn (Z.to_nat (Z.max 0 count)) (concat ps).
Proof.
  intros R. pose proof (new_ok count m) as N. destruct (new_error_writer count m) as [m0 w0]. destruct N as [OK C].
  destruct (writes_spec ex count e (length m) _ _ _ R OK) as (O' & C' & _). cbn [fst snd] in *. split; [exact (proj1 O')|]. rewrite C', C. reflexivity.
Qed.
Print Assumptions C120_error_writer.
Lemma reached_ok ex count e m ps m1 w1 : writes_of ex count e (length m) (new_error_writer count m) ps (m1, w1) -> ok_writer count (length m) m1 w1.
Proof.
  intros R. pose proof (new_ok count m) as N. destruct (new_error_writer count m) as [m0 w0]. destruct N as [OK C].
  destruct (writes_spec ex count e (length m) _ _ _ R OK) as (O' & _). exact O'.
Qed.
Theorem C120_error_writer_output ex count e m ps m1 w1 qs m2 w2 : writes_of ex count e (length m) (new_error_writer count m) ps (m1, w1) ->
  writes_of ex count e (length m) (m1, w1) qs (m2, w2) -> contents m2 w1 = contents m1 w1.
Proof. intros R1 R2. exact (proj2 (proj2 (writes_spec ex count e (length m) _ _ _ R2 (reached_ok ex count e m ps m1 w1 R1)))). Qed.
Print Assumptions C120_error_writer_output.
(** Each write answers: the error if all bytes are there, else the number of bytes accepted; it never panics. *)
Theorem C120_error_writer_answers ex count e m ps m1 w1 p : writes_of ex count e (length m) (new_error_writer count m) ps (m1, w1) -> valid m1 p -> (0 <= count)%Z ->
  exists x, error_write_mem ex count e w1 p m1 =
    Done (if (Z.of_nat (slen w1) =? count)%Z then (0%Z, Some e) else (Z.min (Z.of_nat (slen p)) (count - Z.of_nat (slen w1)), None), x).
Proof.
  intros R V Hc. destruct (write_step ex count e (length m) m1 w1 p (reached_ok ex count e m ps m1 w1 R) V) as (r & m' & w' & E & _ & _ & _ & _ & ->).
  exists (m', w'). rewrite E. destruct (Z.eqb_spec (Z.of_nat (slen w1)) count); [reflexivity|]. destruct (Z.ltb_spec count 0); [lia|reflexivity].
Qed.
Print Assumptions C120_error_writer_answers.
(** Finding: Output returns the slice the writer goes on to append to: a byte the caller appends to it is overwritten by the next write. *)
Theorem C120_output_append_refuted ex count e m ps m1 w1 v p b bs : writes_of ex count e (length m) (new_error_writer count m) ps (m1, w1) ->
  (Z.of_nat (slen w1) < count)%Z -> valid m1 p -> (forall a i, cells_of p a i -> match w1 with Some h => a <> arr h | None => True end) ->
  contents m1 p = b :: bs ->
  let (m2, mine) := sappend ex m1 w1 [v] in
  contents m2 mine = contents m1 w1 ++ [v] /\
  exists r m3 w3, error_write_mem ex count e w1 p m2 = Done (r, (m3, w3)) /\ contents m3 mine = contents m1 w1 ++ [b].
Proof.
  intros R LT Vp AP Cp. pose proof (reached_ok ex count e m ps m1 w1 R) as OK. destruct OK as (V & LE & CA).
  pose proof (sappend_spec ex m1 w1 [v] V) as SP. destruct (sappend ex m1 w1 [v]) as [m2 mine]. destruct SP as (V2 & C2 & L2 & F2 & K2 & _).
  destruct (K2 ltac:(cbn; lia)) as (S2 & _ & HH). split; [exact C2|].
  assert (D : forall a i, cells_of w1 a i -> ~ spare w1 (length [v]) a i).
  { intros a i Ci Si. destruct w1 as [h|]; [|contradiction]. cbn in Ci, Si. lia. }
  assert (D' : forall a i, cells_of p a i -> ~ spare w1 (length [v]) a i).
  { intros a i Ci Si. specialize (AP a i Ci). destruct w1 as [h|]; [|contradiction]. cbn in Si. destruct Si as [-> _]. congruence. }
  assert (OK2 : ok_writer count (length m) m2 w1) by (split; [eapply frame_valid; eauto|auto]).
  assert (Vp2 : valid m2 p) by (eapply frame_valid; eauto).
  destruct (write_step ex count e (length m) m2 w1 p OK2 Vp2) as (r & m3 & w3 & E & OK3 & C3 & F3 & H3 & Er). exists r, m3, w3. split; [exact E|].
  pose proof (frame_contents _ _ _ w1 F2 V D) as Cw. pose proof (frame_contents _ _ _ p F2 Vp D') as Cp2. rewrite Cw, Cp2, Cp in C3.
  pose proof (contents_length m1 w1 V) as Lw. pose proof (contents_length m3 w3 (proj1 OK3)) as L3.
  destruct w1 as [h|], mine as [hm|]; try contradiction; [|cbn in CA; lia]. destruct w3 as [h3|]; [|contradiction].
  destruct HH as (A1 & A2), H3 as (B1 & B2 & B3). cbn [slen length] in *.
  assert (X : len hm <= len h3). { rewrite <- L3, C3, firstn_length, app_length. cbn [length]. lia. }
  assert (Y : contents m3 (Some hm) = firstn (len hm) (contents m3 (Some h3))).
  { unfold contents. rewrite firstn_firstn, Nat.min_l by lia. rewrite A1, A2, B1, B2. reflexivity. }
  rewrite Y, C3, firstn_firstn, Nat.min_l by lia. rewrite L2, firstn_app, Lw. rewrite firstn_all2 by lia. replace (len h + 1 - len h) with 1 by lia. reflexivity.
Qed.
Print Assumptions C120_output_append_refuted.

(** ** Non-vacuity *)
(** a filter that replaces the one after it: the world tells for each element whether it is the constant true (0), the constant false (1)
    or "store 1 into the next element, true" (2) *)
Example C120_ex_and :
  let slot (w : list nat) i (t : nat) (x : list nat) :=
    match nth i w 0 with 0 => (true, x) | 1 => (false, x) | _ => (true, match set_nth x (i + 1) 1 with Some y => y | None => x end) end in
  kept_and slot 3 0 [0; 2; 0] = (false, [0; 2; 1]) /\ kept_and slot 3 0 [0; 0; 2] = (true, [0; 0; 2]) /\ kept_or slot 3 0 [1; 1; 2] = (true, [1; 1; 2]).
Proof. repeat split. Qed.
(** two iterators; the first one, when it ends, puts another one into the element after it and a failing one into its own element; the
    world: what is in the slice, how often the first has been called *)
Example C120_ex_concat :
  let it (k : nat) : stepfn (list nat * nat) nat := fun _ w =>
    match k with
    | 0 => match snd w with 0 => Done ((5, None), ([2; snd w], 1)) | _ => Done ((0, Some EOI), ([2; 2], 2)) end
    | 1 => Done ((6, None), w)
    | _ => Done ((0, Some (UserErr 7)), w)
    end in
  let slot (w : list nat * nat) i := option_map it (nth_error (fst w) i) in
  found_run slot 2 0 ([0; 1], 0) [5] (UserErr 7) ([2; 2], 2).
Proof.
  cbn zeta. change [5] with ([5] ++ @nil nat). eapply fr_iter with (h1 := ([2; 0], 1)) (h2 := ([2; 2], 2)); [lia|reflexivity| | |].
  - econstructor; [exists 0; intros m _; reflexivity|constructor].
  - exists 0, 0. intros m _. reflexivity.
  - eapply fr_err; [lia|reflexivity|constructor|exists 0, 0; intros m _; reflexivity|discriminate].
Qed.
(** the slice of the first write is overwritten with [9; 2] and written again *)
Example C120_ex_writer : exists m' w', writes_of (fun _ _ => 0) 3 (UserErr 1) 1 (new_error_writer 3 [[1; 2]%Z]) [[1; 2]; [9; 2]]%Z (m', w') /\ contents m' w' = [1; 2; 9]%Z.
Proof.
  eexists. eexists. split.
  - refine (wo_write (fun _ _ => 0) 3 (UserErr 1) 1 [[1; 2]; [0; 0; 0]]%Z (Some (Hdr 1 0 0 3)) (Some (Hdr 0 0 2 2)) _ _ [[9; 2]%Z] _ _ _ _); [cbn; lia|reflexivity|].
    refine (wo_other (fun _ _ => 0) 3 (UserErr 1) 1 [[1; 2]; [1; 2; 0]]%Z (Some (Hdr 1 0 2 3)) [[9; 2]; [1; 2; 0]]%Z _ _ _ _).
    { split; [cbn; lia|]. split; [intros [|[|a]] L; cbn in L |- *; try reflexivity; lia|]. intros [|[|a]] i L N; cbn in L; [| |lia].
      - destruct N. intros [E _]. discriminate.
      - reflexivity. }
    refine (wo_write (fun _ _ => 0) 3 (UserErr 1) 1 [[9; 2]; [1; 2; 0]]%Z (Some (Hdr 1 0 2 3)) (Some (Hdr 0 0 2 2)) _ _ [] _ _ _ _); [cbn; lia|reflexivity|]. apply wo_nil.
  - reflexivity.
Qed.
