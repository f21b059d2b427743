(** Property C88: the rows of a CSV document. *)
From Coq Require Import List Lia Arith.
From Verif Require Import Base Iter IterSpec IterProofs SliceMem Csv CsvSpec Stream StreamProofs.
Import ListNotations.
Open Scope nat_scope.

Section Csv.
  Context {S T : Type} {ZT : Zero T}.
  Variable parser : S -> (option (list T) * option err) * S.
  Notation gen := (csv_gen parser).
  Let stt := csv_state S T.

  (** the last record is a valid slice at offset 0 whose array has exactly its capacity *)
  Let ok (st : stt) := c_done st = false /\
    match c_last st with None => True | Some h => arr h < length (c_mem st) /\ off h = 0 /\ length (array (c_mem st) (arr h)) = cap h end.

  Lemma array_upd (m : mem T) a l : a < length m -> array (upd m a l) a = l.
  Proof.
    intros L. unfold array, upd. rewrite app_nth2; rewrite firstn_length_le by lia; [|lia]. rewrite Nat.sub_diag. reflexivity.
  Qed.
  Lemma length_upd (m : mem T) a l : a < length m -> length (upd m a l) = length m.
  Proof. intros L. unfold upd. rewrite app_length, firstn_length_le by lia. cbn [length]. rewrite skipn_length. lia. Qed.
  Lemma array_new (m : mem T) r : array (m ++ [r]) (length m) = r.
  Proof. unfold array. rewrite app_nth2, Nat.sub_diag by lia. reflexivity. Qed.

  (** one record: the slice holds it; where it was written *)
  Lemma put_ok (m : mem T) last r m' line : csv_put m last r = (m', line) ->
    match last with None => True | Some h => arr h < length m /\ off h = 0 /\ length (array m (arr h)) = cap h end ->
    contents m' line = r /\ match line with None => True | Some h => arr h < length m' /\ off h = 0 /\ length (array m' (arr h)) = cap h end.
  Proof.
    unfold csv_put. intros E V. destruct (scap last <? length r) eqn:C.
    - injection E as <- <-. cbn [contents arr off len cap]. rewrite array_new, skipn_O, firstn_all. split; [reflexivity|].
      rewrite app_length. cbn. lia.
    - apply Nat.ltb_ge in C. destruct last as [h|].
      + injection E as <- <-. destruct V as (V1 & V2 & V3). cbn [scap] in C. cbn [contents arr off len cap]. rewrite array_upd, length_upd by exact V1.
        rewrite V2. unfold write_at. cbn [firstn app Nat.add skipn]. split.
        * rewrite firstn_app, firstn_all, Nat.sub_diag. cbn. apply app_nil_r.
        * rewrite app_length, skipn_length. lia.
      + injection E as <- <-. cbn in C. destruct r; [auto|cbn in C; lia].
  Qed.
  Lemma gen_row st r s1 : ok st -> parser (c_src st) = ((Some r, None), s1) ->
    exists h m', csv_put (c_mem st) (c_last st) r = (m', h) /\ returns gen st (h, None) (CsvState false None h m' s1) /\ contents m' h = r /\
      ok (CsvState false None h m' s1).
  Proof.
    intros (D & V) P. destruct (csv_put (c_mem st) (c_last st) r) as [m' h] eqn:E. exists h, m'. destruct (put_ok _ _ _ _ _ E V) as (C & V').
    split; [reflexivity|]. split.
    - exists 0. intros n _. unfold csv_gen. rewrite D. unfold csv_read. rewrite P, E. reflexivity.
    - split; [exact C|]. split; [reflexivity|exact V'].
  Qed.
  Lemma gen_rows rs : forall st s2, ok st -> delivers parser (c_src st) rs s2 ->
    exists hs st', emits_rows (c_mem (T:=T)) gen st hs rs st' /\ ok st' /\ c_src st' = s2.
  Proof.
    induction rs as [|r rs IH]; intros st s2 O D; inversion D; subst.
    - exists [], st. split; [constructor|]. auto.
    - match goal with H : parser _ = _ |- _ => destruct (gen_row st r _ O H) as (h & m' & _ & Rt & C & O') end.
      match goal with H : delivers _ _ rs _ |- _ => destruct (IH _ _ O' H) as (hs & st' & Em & Ok' & E) end.
      exists (h :: hs), st'. split; [econstructor; eauto|]. auto.
  Qed.
  Lemma gen_end st r s3 : ok st -> parser (c_src st) = ((r, Some EOF), s3) -> exists st2, fails gen st EOI st2 /\ (r = None -> c_mem st2 = c_mem st).
  Proof.
    intros (D' & _) P. unfold fails, returns, csv_gen, csv_read. rewrite D', P. destruct r as [r|].
    - destruct (csv_put (c_mem st) (c_last st) r) as [m' h]. eexists. split; [eexists _, 0; intros; reflexivity|discriminate].
    - eexists. split; [eexists _, 0; intros; reflexivity|reflexivity].
  Qed.
  Lemma emits_rows_emits st hs rs st' : emits_rows (c_mem (T:=T)) gen st hs rs st' -> emits gen st hs st'.
  Proof. induction 1; econstructor; eauto. Qed.
  Lemma emits_rows_it st hs rs st' : emits_rows (c_mem (T:=T)) gen st hs rs st' -> emits_rows mem_it (next gen) (ofIter st) hs rs (ofIter st').
  Proof. induction 1; [constructor|]. econstructor; [apply next_value; eassumption|exact H0|exact IHemits_rows]. Qed.

  (** ** C88. CSV rows *)
  (** The iterator gives the records of the document in order, each readable until the next call, and then EOI for ever. *)
  Theorem C88_rows m s rs s2 s3 r : delivers parser s rs s2 -> parser s2 = ((r, Some EOF), s3) ->
    exists hs it', emits_rows mem_it (next gen) (ofIter (csv_new false m s)) hs rs it' /\ stuck (next gen) it' EOI.
  Proof.
    intros D P. destruct (gen_rows rs (csv_new false m s) s2) as (hs & st' & Em & (D' & V) & E); [split; [reflexivity|exact Logic.I]|exact D|].
    exists hs, (ofIter st'). split; [apply emits_rows_it; exact Em|].
    destruct (gen_end st' r s3 (conj D' V)) as (st2 & Fa & _); [rewrite E; exact P|]. eapply ofIter_stuck. exact Fa.
  Qed.
  (** Any other error ends the iterator as well: the rows before it, then that error for ever. *)
  Theorem C88_error m s rs s2 s3 r e : delivers parser s rs s2 -> parser s2 = ((r, Some e), s3) -> e <> EOF ->
    exists hs it', emits_rows mem_it (next gen) (ofIter (csv_new false m s)) hs rs it' /\ stuck (next gen) it' e.
  Proof.
    intros D P Ne. destruct (gen_rows rs (csv_new false m s) s2) as (hs & st' & Em & (D' & V) & E); [split; [reflexivity|exact Logic.I]|exact D|].
    exists hs, (ofIter st'). split; [apply emits_rows_it; exact Em|]. rewrite <- E in P.
    assert (Fa : exists st2, fails gen st' e st2).
    { unfold fails, returns, csv_gen, csv_read. rewrite D', P. destruct r as [r|]; [destruct (csv_put (c_mem st') (c_last st') r) as [m' h]|];
        destruct e; try congruence; eexists _, _, 0; intros; reflexivity. }
    destruct Fa as (st2 & Fa). eapply ofIter_stuck. exact Fa.
  Qed.
  (** Finding: the generated function itself does not stay with the error; it goes on reading (and hands out the record that came
      with the error). *)
  Theorem C88_gen_goes_on_refuted m s r e s1 r2 s2 : parser s = ((Some r, Some e), s1) -> e <> EOF -> e <> EOI -> parser s1 = ((Some r2, None), s2) ->
    exists h st1 h2 st2, returns gen (csv_new false m s) (h, Some e) st1 /\ contents (c_mem st1) h = r /\
      returns gen st1 (h2, None) st2 /\ contents (c_mem st2) h2 = r2.
  Proof.
    intros P N1 N2 P2. destruct (csv_put m None r) as [m' h] eqn:E. destruct (put_ok m None r m' h E Logic.I) as (C & V).
    exists h, (CsvState false (Some e) h m' s1).
    destruct (gen_row (CsvState false (Some e) h m' s1) r2 s2 (conj eq_refl V) P2) as (h2 & m2 & _ & R2 & C2 & _).
    exists h2, (CsvState false None h2 m2 s2). split; [|auto]. exists 0. intros n _. unfold csv_gen, csv_new, csv_read. cbn [c_done c_mem c_last c_src].
    rewrite P, E. destruct e; congruence || reflexivity.
  Qed.
  (** After the end the generated function answers EOI for ever by itself, without reading again. *)
  Theorem C88_gen_end m s rs s2 s3 r : delivers parser s rs s2 -> parser s2 = ((r, Some EOF), s3) ->
    exists hs st1 st2, emits gen (csv_new false m s) hs st1 /\ returns gen st1 (None, Some EOI) st2 /\ c_src st2 = s3 /\
      returns gen st2 (None, Some EOI) st2.
  Proof.
    intros D P. destruct (gen_rows rs (csv_new false m s) s2) as (hs & st' & Em & (D' & V) & E); [split; [reflexivity|exact Logic.I]|exact D|].
    rewrite <- E in P. exists hs, st'. unfold returns, csv_gen, csv_read. rewrite D', P.
    destruct r as [r|]; [destruct (csv_put (c_mem st') (c_last st') r) as [m' h]|];
      (eexists; split; [eapply emits_rows_emits; exact Em|]; split; [exists 0; intros; reflexivity|]; split; [reflexivity|exists 0; intros; reflexivity]).
  Qed.
  (** A nil reader: an empty document. *)
  Theorem C88_nil m s : yields (next gen) (ofIter (csv_new true m s)) [] EOI.
  Proof. exists (ofIter (csv_new true m s)). split; [constructor|]. eapply ofIter_stuck. exists None, 0. intros n _. reflexivity. Qed.

  (** All records have the same number of fields: they are written over one another. *)
  Lemma same_array rs : forall k st h s2, ok st -> c_last st = Some h -> len h = k -> k <= cap h -> Forall (fun r => length r = k) rs ->
    delivers parser (c_src st) rs s2 ->
    exists st', emits_rows (c_mem (T:=T)) gen st (repeat (Some h) (length rs)) rs st' /\ ok st' /\ c_src st' = s2 /\ c_last st' = Some h /\
      (rs <> [] -> contents (c_mem st') (Some h) = last rs []) /\ (rs = [] -> st' = st).
  Proof.
    induction rs as [|r rs IH]; intros k st h s2 O La Lk Ck F D; inversion D; subst.
    - exists st. split; [constructor|]. split; [exact O|]. split; [reflexivity|]. split; [exact La|]. split; [congruence|reflexivity].
    - inversion F as [|? ? Lr F']; subst.
      match goal with H : parser _ = _ |- _ => destruct (gen_row st r _ O H) as (h' & m' & Pu & Rt & C & O') end.
      assert (h' = Some h).
      { unfold csv_put in Pu. rewrite La in Pu. cbn [scap] in Pu. replace (cap h <? length r) with false in Pu by (symmetry; apply Nat.ltb_ge; lia).
        injection Pu as _ <-. rewrite Lr. destruct h; reflexivity. }
      subst h'. match goal with H : delivers _ _ rs _ |- _ =>
        destruct (IH (len h) (CsvState false None (Some h) m' s1) h s2 O' eq_refl eq_refl Ck F' H) as (st' & Em & Ok' & E1 & E2 & E3 & E4) end.
      exists st'. split; [cbn; econstructor; eauto|]. split; [exact Ok'|]. split; [exact E1|]. split; [exact E2|]. split; [|discriminate].
      intros _. destruct rs as [|r' rs]; [rewrite E4 by reflexivity; exact C|]. rewrite E3 by discriminate. reflexivity.
  Qed.
  Lemma same_first m s r rs s2 k : 0 < k -> Forall (fun r => length r = k) (r :: rs) -> delivers parser s (r :: rs) s2 ->
    exists h st', emits_rows (c_mem (T:=T)) gen (csv_new false m s) (repeat (Some h) (length (r :: rs))) (r :: rs) st' /\
      contents (c_mem st') (Some h) = last (r :: rs) [] /\ ok st' /\ c_src st' = s2 /\ c_last st' = Some h.
  Proof.
    intros K F D. inversion D; subst. inversion F as [|? ? Lr F']; subst.
    match goal with H : parser _ = _ |- _ => destruct (gen_row (csv_new false m s) r _ (conj eq_refl Logic.I) H) as (h' & m' & Pu & Rt & C & O') end.
    set (h := Hdr (length m) 0 (length r) (length r)).
    assert (h' = Some h).
    { unfold csv_put in Pu. cbn [csv_new c_mem c_last scap] in Pu. replace (0 <? length r) with true in Pu by (symmetry; apply Nat.ltb_lt; lia).
      injection Pu as _ <-. reflexivity. }
    subst h'. match goal with H : delivers _ _ rs _ |- _ =>
      destruct (same_array rs (length r) (CsvState false None (Some h) m' s1) h s2 O' eq_refl eq_refl (le_n _) F' H) as (st' & Em & Ok' & E1 & E2 & E3 & E4) end.
    exists h, st'. split; [cbn; econstructor; eauto|]. split; [|auto].
    destruct rs as [|r' rs]; [rewrite E4 by reflexivity; exact C|]. rewrite E3 by discriminate. reflexivity.
  Qed.
  (** Finding (documented): rows that are kept are overwritten. When all rows have the same number of fields, every row that was handed
      out shows the last one. *)
  Theorem C88_rows_overwritten m s rs s2 k : 0 < k -> Forall (fun r => length r = k) rs -> delivers parser s rs s2 ->
    exists hs it', emits_rows mem_it (next gen) (ofIter (csv_new false m s)) hs rs it' /\ Forall (fun h => contents (mem_it it') h = last rs []) hs.
  Proof.
    intros K F D. destruct rs as [|r rs].
    - inversion D; subst. exists [], (ofIter (csv_new false m s2)). split; constructor.
    - destruct (same_first m s r rs s2 k K F D) as (h & st' & Em & C & _). exists (repeat (Some h) (length (r :: rs))), (ofIter st').
      split; [apply emits_rows_it; exact Em|]. apply Forall_forall. intros x I. apply repeat_spec in I. subst x. exact C.
  Qed.
  (** so ReduceToSlice gives the last row again and again *)
  Theorem C88_collected_refuted m s rs s2 s3 k : 0 < k -> Forall (fun r => length r = k) rs -> delivers parser s rs s2 -> parser s2 = ((None, Some EOF), s3) ->
    exists hs it', returns (next (st_to_slice (next gen))) (ofIter (false, ofIter (csv_new false m s))) (hs, None) it' /\ length hs = length rs /\
      Forall (fun h => contents (mem_it (snd (src it'))) h = last rs []) hs.
  Proof.
    intros K F D P. destruct rs as [|r rs].
    - inversion D; subst. destruct (gen_end (csv_new false m s2) None s3 (conj eq_refl Logic.I) P) as (st2 & Fa & _).
      destruct Fa as (v & Fa). exists [], (ofIter (true, dead st2 EOI)). split; [|split; [reflexivity|constructor]].
      eapply to_slice_next; [constructor|]. exists zv. apply next_error. exists v. exact Fa.
    - destruct (same_first m s r rs s2 k K F D) as (h & st' & Em & C & O' & E' & L').
      destruct (gen_end st' None s3 O') as (st2 & Fa & M2); [rewrite E'; exact P|].
      exists (repeat (Some h) (length (r :: rs))), (ofIter (true, dead st2 EOI)). split; [|split].
      + eapply to_slice_next; [eapply ofIter_emits; eapply emits_rows_emits; exact Em|]. destruct Fa as (v & Fa). exists zv. apply next_error. exists v. exact Fa.
      + apply repeat_length.
      + apply Forall_forall. intros y I. apply repeat_spec in I. subst y. cbn [src snd ofIter]. unfold mem_it. cbn [src dead].
        rewrite (M2 eq_refl). exact C.
  Qed.
End Csv.
(** A document of two rows of two fields: the rows as they come, and what is left of them. *)
Example C88_nonvacuous :
  let parser := fun s : list (list Z) => match s with [] => ((None, Some EOF), []) | r :: s' => ((Some r, None), s') end in
  delivers parser [[1%Z; 2%Z]; [3%Z; 4%Z]] [[1%Z; 2%Z]; [3%Z; 4%Z]] [] /\
  exists h st1 st2, returns (csv_gen parser) (csv_new false [] [[1%Z; 2%Z]; [3%Z; 4%Z]]) (h, None) st1 /\ contents (c_mem st1) h = [1%Z; 2%Z] /\
    returns (csv_gen parser) st1 (h, None) st2 /\ contents (c_mem st2) h = [3%Z; 4%Z].
Proof.
  cbn zeta. split; [econstructor; [reflexivity|]; econstructor; [reflexivity|]; constructor|].
  eexists (Some (Hdr 0 0 2 2)), _, _. split; [exists 0; intros; reflexivity|]. split; [reflexivity|]. split; [exists 0; intros; reflexivity|]. reflexivity.
Qed.

(** Content negotiation: an iterator over the body exactly for the exact content type; the gzip reader (which panics for a body
    that is not gzip) exactly for the exact header. *)
Theorem C88_negotiation {Text R It Jt : Type} (eqb : Text -> Text -> bool) (gzip csv json : Text) (gz : R -> outcome R) (oc : R -> It) (ij : R -> Jt) :
  (forall a b, eqb a b = true <-> a = b) -> forall ct ae body,
  (negotiate_csv Text eqb csv oc ct body = Some (oc body) <-> ct = csv) /\ (negotiate_csv Text eqb csv oc ct body = None <-> ct <> csv) /\
  (negotiate_json Text eqb json ij ct body = Some (ij body) <-> ct = json) /\ (negotiate_json Text eqb json ij ct body = None <-> ct <> json) /\
  (ae = gzip -> accept_gzip Text eqb gzip gz ae body = gz body) /\ (ae <> gzip -> accept_gzip Text eqb gzip gz ae body = Done body).
Proof.
  intros E ct ae body. unfold negotiate_csv, negotiate_json, accept_gzip. pose proof (E ct csv) as E1. pose proof (E ct json) as E2. pose proof (E ae gzip) as E3.
  destruct (eqb ct csv), (eqb ct json), (eqb ae gzip); intuition congruence.
Qed.
