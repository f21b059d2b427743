(** What Parse and Iterate leave in an io.Reader. *)
From Verif Require Import Base GoMap Iter IterSpec IterProofs Readers ReaderSpec ReaderProofs Stream Union Rest Json JsonLex JsonParse JsonSim JsonSpec JsonLexProofs JsonTokProofs JsonParseProofs JsonDocProofs JsonApiProofs JsonIterProofs JsonParseSim JsonFaultSpec JsonFaultProofs2 JsonRead JsonReadProofs JsonReadProofs2.
From Coq Require Import ZifyBool.
Open Scope go_scope.
Open Scope Z_scope.

Section Arr.
  Context {S0 : Type} (fn : stepfn S0 Z) (P : S0 -> Prop).
  Hypothesis FP : forall m s v s', fn m s = Done ((v, None), s') -> P s -> P s'.
  Lemma clean_end e : forall st vs st', arun (pnx e) pun st vs EOI st' -> astate st -> clean (snd st').
  Proof.
    intros st vs st' A. remember EOI as e' eqn:E. induction A as [st e' st' [n H]|st v st1 vs e' st' [n H] R IH]; intros AS.
    - subst e'. specialize (H n n (le_n n) (le_n n)). exact (w_array e _ (fun k t s r s' HD E => proj1 (w_value e n k t s r s' HD E)) _ _ _ _ AS H).
    - specialize (H n n (le_n n) (le_n n)). pose proof (w_array e _ (fun k t s r s' HD E => proj1 (w_value e n k t s r s' HD E)) _ _ _ _ AS H) as (X & Y). apply IH; auto. unfold astate. rewrite X. exact Y.
  Qed.
  Lemma arun_sim {I1 I2} (R : I1 -> I2 -> Prop) nx1 nx2 un1 un2 : sim R nx1 nx2 -> (forall s1 s2 v, R s1 s2 -> R (un1 s1 v) (un2 s2 v)) ->
    forall st2 vs e' st2', arun nx2 un2 st2 vs e' st2' -> forall st1, R2 R st1 st2 -> exists st1', arun nx1 un1 st1 vs e' st1' /\ R2 R st1' st2'.
  Proof.
    intros NX UN st2 vs e' st2' A. induction A as [st e' st' [n H]|st v st1 vs e' st' [n H] A IH]; intros s1 RR.
    - destruct (sim_array R nx1 nx2 un1 un2 NX UN _ _ (sim_parse_value R nx1 nx2 un1 un2 NX UN n) n _ _ _ _ RR (H n n (le_n n) (le_n n))) as (s1' & RR' & O).
      exists s1'. split; auto. apply ar_end. exact O.
    - destruct (sim_array R nx1 nx2 un1 un2 NX UN _ _ (sim_parse_value R nx1 nx2 un1 un2 NX UN n) n _ _ _ _ RR (H n n (le_n n) (le_n n))) as (s1' & RR' & O).
      destruct (IH _ RR') as (s2' & A2 & RR2). exists s2'. split; auto. eapply ar_step; eauto.
  Qed.

  Lemma iter_leaves e W toks l rest j b : tokenized e W toks rest -> exact_at W rest -> gval b toks (JArr l) ->
    yields (next fn) j W e -> live P 0 j ->
    exists it it1 it2, settles (fun m => iterate (next (lexer_gen fn)) unread m (lexer j)) (DocArr it) /\
      emits (doc_next (next (lexer_gen fn)) unread) (DocArr it) (map value_of l) it1 /\ fails (doc_next (next (lexer_gen fn)) unread) it1 EOI (DocArr it2) /\
      live P 0 (src (snd (src it2))) /\ yields (next fn) (src (snd (src it2))) rest e.
  Proof.
    intros TZ EX G Y L.
    destruct (lexes_total e rest) as (ts & e' & LX & _). pose proof (tokenized_lexes _ _ _ _ _ _ TZ LX) as LX2.
    pose proof (lexes_ok _ _ _ _ LX2) as F. apply Forall_app in F as [F _].
    set (s0 := mkP None true [] W). pose proof (pnx_yields e _ _ _ LX2 true) as YP. fold s0 in YP.
    assert (TO : exists o r, toks = o :: r /\ ttyp o = tOBracket) by (inversion G; subst; eauto). destruct TO as (o & r & -> & TT).
    cbn [app] in YP. destruct (Y_cons_un (pnx e) pun e' (pun_returns e) _ _ _ YP) as (s1 & [n1 N1] & Y1 & U1).
    assert (R1 : ready s1) by (exact (proj1 (pnx_ready e _ _ _ _ (conj eq_refl eq_refl : ready s0) (N1 n1 n1 (le_n _) (le_n _))))).
    assert (D : exists st', arun (pnx e) pun (true, pun s1 o) (map value_of l) EOI st' /\ yields (pnx e) (snd st') ts e').
    { inversion G as [| | | | | | | |? c TO TC|? ? ? TO HD GE]; subst.
      - inversion F as [|? ? _ F1]; subst. cbn [app] in Y1, U1. destruct (Y_cons (pnx e) e' _ _ _ Y1) as (s2 & [n2 N2] & Y2). exists (true, s2). split; [|exact Y2].
        apply ar_end. exists n2. intros d m _ L2. unfold array_gen. destruct (pun_returns e s1 o) as [n0 N0].
        change (pnx e m (pun s1 o)) with (Done ((o, None : option err), mkP (pd s1) (pc s1) (pb s1) (px s1))). cbn [obind].
        replace (mkP (pd s1) (pc s1) (pb s1) (px s1)) with s1 by (destruct s1; reflexivity). rewrite (N2 m m) by lia. cbn [obind]. rewrite TC. reflexivity.
      - inversion F as [|? ? _ F1]; subst. destruct (accepts (pnx e) pun e' (pun_returns e) b) as (_ & _ & A). destruct (A _ _ GE F1) as [_ A2]. exact (A2 (pun s1 o) ts o HD U1). }
    destruct D as (st' & AR & YS).
    pose proof (clean_end e _ _ _ AR ltac:(unfold astate; cbn; eexists; apply pun_ready; exact R1)) as ((PD & PB) & PC).
    assert (R0 : Rel fn P e W (lexer j) s0).
    { split; [reflexivity|]. cbn. split; auto. split; auto. split; [left; left; auto|]. split; auto. split; [exists []; auto|]. exists []. constructor. }
    destruct (rel_sim fn P FP e W n1 (lexer j) s0 _ _ R0 (N1 n1 n1 (le_n _) (le_n _))) as (i1 & RI1 & [m1 M1]).
    destruct (arun_sim (Rel fn P e W) (next (lexer_gen fn)) (pnx e) unread pun (rel_sim fn P FP e W) (rel_un fn P e W) _ _ _ _ AR (true, unread i1 o)) as (st1 & AR1 & (_ & RB & RL)).
    { split; [reflexivity|]. cbn. apply rel_un. exact RI1. }
    rewrite PD in RL. destruct RL as (_ & Y2 & _ & LV & EX2 & (read & TZ2)).
    destruct (arun_emits (next (lexer_gen fn)) unread _ _ _ _ AR1) as (q & EM & FA).
    assert (ST : forall st r st', returns (next (array_gen (next (lexer_gen fn)) unread (parseValue (next (lexer_gen fn)) unread))) st r st' -> returns (doc_next (next (lexer_gen fn)) unread) (DocArr st) r (DocArr st')).
    { intros a0 r0 a1 [n R]. exists n. intros m L0. specialize (R m L0). cbn [doc_next].
      change (next (array_gen (next (lexer_gen fn)) unread (parse_value (next (lexer_gen fn)) unread m)) m a0) with (next (array_gen (next (lexer_gen fn)) unread (parseValue (next (lexer_gen fn)) unread)) m a0). rewrite R. reflexivity. }
    exists (parse_array (unread i1 o)), (DocArr (ofIter q)), (mkImpl false st1 [] (Some EOI)). split; [|split; [|split; [|split]]].
    - exists m1. intros m L0. unfold iterate. rewrite (M1 m L0). cbn [obind]. rewrite TT. reflexivity.
    - pose proof (ofIter_emits _ _ _ _ EM) as E2. unfold parse_array. revert E2. generalize (ofIter (T := value) (true, unread i1 o)). generalize (map value_of l). intros vs a E2.
      induction E2 as [s|s v s2 l0 s3 R E IH]; [constructor|]. econstructor; [apply ST; exact R|exact IH].
    - destruct FA as (v & [n FA]). exists zv. apply ST. exists n. intros m L0. rewrite next_live, FA by auto. reflexivity.
    - cbn. apply LV. exact PC.
    - cbn. destruct (lexes_total e (px (snd st'))) as (ts2 & e2 & LX3 & _). pose proof (pnx_yields e _ _ _ LX3 (pc (snd st'))) as YP2.
      replace (mkP None (pc (snd st')) [] (px (snd st'))) with (snd st') in YP2 by (destruct (snd st'); cbn in *; congruence).
      destruct (yields_det _ _ _ _ _ _ YS YP2) as [-> ->].
      pose proof (tokenized_lexes _ _ _ _ _ _ TZ2 LX3) as LX4. destruct (lexes_det _ _ _ _ _ _ LX2 LX4) as [ET _]. apply app_inv_tail in ET. subst read.
      assert (px (snd st') = rest) as EE; [|rewrite <- EE; exact Y2].
      destruct (tokenized_rest _ _ _ _ _ TZ TZ2) as (w & FW & [X|X]); [symmetry|]; eapply exact_unique; eauto.
  Qed.
End Arr.

(** ** io.Readers *)
Section Rd.
  Context {S : Type} (rd : reader S).
  (** the reader after [n] runes were read from it *)
  Inductive after (s0 : S) : nat -> S -> Prop :=
  | after_0 : after s0 0 s0
  | after_S n s1 m e1 v e2 s2 : after s0 n s1 -> runes_gen rd m (false, e1, s1) = Done ((v, None), (false, e2, s2)) -> after s0 (Datatypes.S n) s2.
  Definition onrune (s0 : S) (st : bool * option err * S) : Prop := fst (fst st) = false /\ exists n, after s0 n (snd st).
  Lemma runes_ok m st v st' : runes_gen rd m st = Done ((v, None), st') -> fst (fst st) = false -> fst (fst st') = false.
  Proof.
    destruct st as [[d e0] s]. cbn. intros H ->. unfold runes_gen in H. destruct (rread rd s 1) as [[data oe] s1].
    destruct data as [|b data]; [destruct oe; discriminate|]. destruct oe as [x|]; [discriminate|].
    destruct (extra_bytes b) as [[|eb]|]; [injection H as <- <-; reflexivity| |discriminate].
    destruct (rread rd s1 (Datatypes.S eb)) as [[buf oe2] s2]. destruct (_ || _); [discriminate|]. destruct (negb _); [discriminate|]. destruct (combine_bytes b buf); [|discriminate]. injection H as <- <-. reflexivity.
  Qed.
  Lemma onrune_step s0 m st v st' : runes_gen rd m st = Done ((v, None), st') -> onrune s0 st -> onrune s0 st'.
  Proof.
    intros H (A & n & B). pose proof (runes_ok _ _ _ _ H A) as A'. split; auto. exists (Datatypes.S n). destruct st as [[d e1] s1], st' as [[d' e2] s2]. cbn in *. subst. exact (after_S s0 n s1 m e1 v e2 s2 B H).
  Qed.
  Lemma fresh_same e1 s : forall m, next (runes_gen rd) m (mkImpl true (false, e1, s) [] None) = next (runes_gen rd) m (ofIter (runes_init s)).
  Proof. intros m. reflexivity. Qed.
  Lemma live_reads s0 j x e : live (onrune s0) 0 j -> yields (next (runes_gen rd)) j x e -> reads rd (snd (src j)) x e.
  Proof.
    intros (A & B & (C & _) & D) Y. destruct j as [lv [[d e1] s] b le]. cbn in *. subst. destruct b; [|discriminate]. eapply yields_same; [|exact Y]. apply fresh_same.
  Qed.
  Lemma live_init s : live (onrune s) 0 (ofIter (runes_init s)).
  Proof. split; [reflexivity|]. split; [reflexivity|]. split; [|reflexivity]. split; [reflexivity|]. exists 0%nat. constructor. Qed.
  Lemma after_reads s0 W e n s1 : reads rd s0 W e -> after s0 n s1 -> exists y x, W = y ++ x /\ length y = n /\ reads rd s1 x e.
  Proof.
    intros R A. induction A as [|n s1 m e1 v e2 s2 A IH H]; [exists [], W; auto|].
    destruct IH as (y & x & -> & LY & R1). unfold reads in R1.
    assert (ST : returns (next (runes_gen rd)) (ofIter (runes_init s1)) (v, None) (mkImpl true (false, e2, s2) [] None)).
    { exists 0%nat. intros k _. rewrite <- (fresh_same e1). unfold next. cbn [buffer length Nat.sub nth_error fn_live src]. change (runes_gen rd k (false, e1, s1)) with (runes_gen rd m (false, e1, s1)). rewrite H. reflexivity. }
    destruct x as [|v' x].
    - exfalso. apply yields_nil_inv in R1. apply stuck_inv in R1 as (s' & [n1 RN] & _). destruct ST as [n2 ST]. specialize (RN (n1 + n2)%nat ltac:(lia)). rewrite ST in RN by lia. discriminate.
    - apply yields_cons_inv in R1 as (s' & [n1 RN] & Y). destruct ST as [n2 ST]. specialize (RN (n1 + n2)%nat ltac:(lia)). rewrite ST in RN by lia. injection RN as <- <-.
      exists (y ++ [v]), x. rewrite <- app_assoc. split; auto. split; [rewrite app_length; cbn; lia|]. eapply yields_same; [|exact Y]. apply fresh_same.
  Qed.
  Lemma after_holds s0 text bytes e n s1 : Forall scalar text -> holds rd s0 (utf8 text ++ bytes) e -> after s0 n s1 -> (n <= length text)%nat -> holds rd s1 (utf8 (skipn n text) ++ bytes) e.
  Proof.
    intros F H A. induction A as [|n s1 m e1 v e2 s2 A IH ST]; intros L; [exact H|]. specialize (IH ltac:(lia)).
    destruct (skipn n text) as [|r tl] eqn:E; [apply (f_equal (@length Z)) in E; rewrite skipn_length in E; cbn in E; lia|].
    assert (E2 : skipn (Datatypes.S n) text = tl) by (clear - E; revert n E; induction text as [|a text IHt]; intros [|n] E; cbn in *; try discriminate; [injection E as _ <-; reflexivity|apply IHt; exact E]). rewrite E2.
    assert (SR : scalar r). { rewrite Forall_forall in F. apply F. rewrite <- (firstn_skipn n text), E. apply in_or_app. right. left. reflexivity. }
    unfold utf8 in IH. cbn [flat_map] in IH. rewrite <- app_assoc in IH.
    destruct (runes_step rd s1 _ e e1 r _ IH (front_complete _ _ _ (encode_accepts r SR))) as (s' & [k RS] & HO).
    specialize (RS k (le_n k)). change (runes_gen rd k (false, e1, s1)) with (runes_gen rd m (false, e1, s1)) in RS. rewrite ST in RS. injection RS as _ _ <-. exact HO.
  Qed.

  Lemma document_tokens text t rest e : document text t -> exists toks, tokenized e (text ++ rest) toks rest /\ exact_at (text ++ rest) rest /\ gval false toks t /\ container t.
  Proof.
    intros (toks & TZ & G & C & N). exists toks. split; [apply (tokenized_later EOI e text toks [] rest TZ); left; eapply gval_whole; eauto|]. split; auto. exists text. auto.
  Qed.
  Lemma parse_from s text t rest e : document text t -> reads rd s (text ++ rest) e ->
    exists s', settles (ParseFrom rd s) ((value_of t, None), s') /\ reads rd s' rest e /\ exists n, after s n s'.
  Proof.
    intros D R. destruct (document_tokens text t rest e D) as (toks & TZ & EX & G & C).
    destruct (doc_leaves (runes_gen rd) (onrune s) (onrune_step s) e _ toks t rest _ false TZ EX G C R (live_init s)) as (i' & [n RT] & LV & Y).
    exists (reader_of i'). split; [|split].
    - exists n. intros m L. unfold ParseFrom, tok_next, tokens_of. rewrite (RT m L). reflexivity.
    - eapply live_reads; eauto.
    - destruct LV as (_ & _ & (_ & A) & _). exact A.
  Qed.
  Lemma bytes_read s text bytes e : Forall scalar text -> Forall byte bytes -> holds rd s (utf8 text ++ bytes) e -> exists x e', reads rd s (text ++ x) e'.
  Proof.
    intros F FB H. destruct (every_bytes_split bytes FB) as (ps & rs & rest & E & FA & NR).
    assert (F2 : Forall2 ReaderSpec.accepts (map encode text ++ ps) (text ++ rs)).
    { apply Forall2_app; auto. clear - F. induction F as [|x l Hx F IH]; cbn; constructor; auto. apply encode_accepts; auto. }
    assert (EC : utf8 text ++ bytes = concat (map encode text ++ ps) ++ rest) by (rewrite concat_app, <- flat_map_concat_map, <- app_assoc, <- E; reflexivity). rewrite EC in H.
    exists rs. destruct rest as [|b rest].
    - rewrite app_nil_r in H. eexists. eapply runes_yields; eauto.
    - rewrite E in FB. apply Forall_app in FB as [_ FB]. destruct (runes_invalid rd _ _ (b :: rest) s e F2 FB ltac:(discriminate) NR H) as (e' & Y & _). exists e'. exact Y.
  Qed.
  Lemma read_exact s text x bytes e e' s' n : Forall scalar text -> holds rd s (utf8 text ++ bytes) e -> reads rd s (text ++ x) e' -> reads rd s' x e' -> after s n s' -> holds rd s' bytes e.
  Proof.
    intros F H R R' A. destruct (after_reads _ _ _ _ _ R A) as (y & x' & E & LY & R2). destruct (yields_det _ _ _ _ _ _ R' R2) as [<- _].
    apply app_inv_tail in E. subst y. pose proof (after_holds _ _ _ _ _ _ F H A ltac:(lia)) as HO. subst n. rewrite skipn_all in HO. exact HO.
  Qed.
  Lemma parse_from_bytes s text t bytes e : document text t -> Forall scalar text -> Forall byte bytes -> holds rd s (utf8 text ++ bytes) e ->
    exists s', settles (ParseFrom rd s) ((value_of t, None), s') /\ holds rd s' bytes e.
  Proof.
    intros D F FB H. destruct (bytes_read s text bytes e F FB H) as (x & e' & R). destruct (parse_from s text t x e' D R) as (s' & P & R' & n & A).
    exists s'. split; auto. eapply read_exact; eauto.
  Qed.
  Lemma parse_many : forall texts ts, Forall2 document texts ts -> forall s rest e, reads rd s (concat texts ++ rest) e ->
    exists s', settles (ParseMany rd (length texts) s) (map (fun t => (value_of t, None)) ts, s') /\ reads rd s' rest e.
  Proof.
    induction 1 as [|text t texts ts D F IH]; intros s rest e R; cbn [concat app] in R; [exists s; split; [exists 0%nat; reflexivity|exact R]|].
    rewrite <- app_assoc in R. destruct (parse_from s text t _ e D R) as (s1 & [n1 P] & R1 & _). destruct (IH s1 rest e R1) as (s2 & [n2 P2] & R2).
    exists s2. split; auto. exists (n1 + n2)%nat. intros m L. cbn [ParseMany length map]. rewrite P by lia. cbn [obind]. rewrite P2 by lia. reflexivity.
  Qed.
  Lemma parse_many_bytes : forall texts ts, Forall2 document texts ts -> Forall (Forall scalar) texts -> forall s bytes e, Forall byte bytes -> holds rd s (utf8 (concat texts) ++ bytes) e ->
    exists s', settles (ParseMany rd (length texts) s) (map (fun t => (value_of t, None)) ts, s') /\ holds rd s' bytes e.
  Proof.
    induction 1 as [|text t texts ts D F IH]; intros FS s bytes e FB H; cbn [concat app] in H; [exists s; split; [exists 0%nat; reflexivity|exact H]|].
    inversion FS as [|? ? FS1 FS2]; subst. unfold utf8 in H. rewrite flat_map_app, <- app_assoc in H. fold (utf8 text) (utf8 (concat texts)) in H.
    assert (FB2 : Forall byte (utf8 (concat texts) ++ bytes)).
    { apply Forall_app. split; auto. clear - FS2. assert (FC : Forall scalar (concat texts)) by (induction FS2; cbn; auto; apply Forall_app; auto).
      induction FC as [|r l SR FC IH]; cbn; [constructor|]. apply Forall_app. split; auto. eapply accepts_bytes. apply encode_accepts; auto. }
    destruct (parse_from_bytes s text t _ e D FS1 FB2 H) as (s1 & [n1 P] & R1). destruct (IH FS2 s1 bytes e FB R1) as (s2 & [n2 P2] & R2).
    exists s2. split; auto. exists (n1 + n2)%nat. intros m L. cbn [ParseMany length map]. rewrite P by lia. cbn [obind]. rewrite P2 by lia. reflexivity.
  Qed.
  Lemma parse_empty s w e : Forall wsc w -> reads rd s w e -> exists s', settles (ParseFrom rd s) ((zv, Some (eoi_or errEmptyDocument e)), s').
  Proof.
    intros F R. assert (LX : lexes e w [] e).
    { destruct (lex_allws e w (Datatypes.S (length w))) as (l' & H); [eapply Forall_impl; [|exact F]; intros c; unfold wsc, isws; lia|lia|]. eapply lexes_end; eauto. }
    assert (Y : yields (tok_next rd) (tokens_of s) [] e) by (unfold tok_next, tokens_of; eapply lexes_yields; eauto).
    apply yields_nil_inv in Y. apply stuck_inv in Y as (i' & [n RN] & _). exists (reader_of i'). exists n. intros m L. unfold ParseFrom, parse_doc. rewrite (RN m L). reflexivity.
  Qed.

  Lemma iterate_from s text l rest e : document text (JArr l) -> reads rd s (text ++ rest) e ->
    exists it it1 it2 s', settles (Iterate rd s) it /\ emits (doc_next (tok_next rd) unread) it (map value_of l) it1 /\ fails (doc_next (tok_next rd) unread) it1 EOI it2 /\
      iter_reader it2 = Some s' /\ reads rd s' rest e /\ exists n, after s n s'.
  Proof.
    intros D R. destruct (document_tokens text _ rest e D) as (toks & TZ & EX & G & C).
    destruct (iter_leaves (runes_gen rd) (onrune s) (onrune_step s) e _ toks l rest _ false TZ EX G R (live_init s)) as (it & it1 & it2 & S1 & EM & FA & LV & Y).
    exists (DocArr it), it1, (DocArr it2), (reader_of (snd (src it2))). split; [exact S1|]. split; [exact EM|]. split; [exact FA|]. split; [reflexivity|]. split.
    - eapply live_reads; eauto.
    - destruct LV as (_ & _ & (_ & A) & _). exact A.
  Qed.
  Lemma iterate_from_bytes s text l bytes e : document text (JArr l) -> Forall scalar text -> Forall byte bytes -> holds rd s (utf8 text ++ bytes) e ->
    exists it it1 it2 s', settles (Iterate rd s) it /\ emits (doc_next (tok_next rd) unread) it (map value_of l) it1 /\ fails (doc_next (tok_next rd) unread) it1 EOI it2 /\
      iter_reader it2 = Some s' /\ holds rd s' bytes e.
  Proof.
    intros D F FB H. destruct (bytes_read s text bytes e F FB H) as (x & e' & R). destruct (iterate_from s text l x e' D R) as (it & it1 & it2 & s' & A1 & A2 & A3 & A4 & R' & n & A).
    exists it, it1, it2, s'. split; [exact A1|]. split; [exact A2|]. split; [exact A3|]. split; [exact A4|]. exact (read_exact s text x bytes e e' s' n F H R R' A).
  Qed.
End Rd.
