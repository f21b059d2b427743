(** Documents cut short, and readers that fail: Parse and Iterate. *)
From Verif Require Import Base GoMap Iter IterSpec IterProofs Readers ReaderSpec ReaderProofs Stream Union Rest Json JsonLex JsonParse JsonSim JsonSpec JsonLexProofs JsonTokProofs JsonParseProofs JsonDocProofs JsonApiProofs JsonRejectProofs JsonIterProofs JsonParseSim JsonFaultSpec JsonFaultProofs.
From Coq Require Import ZifyBool.
Open Scope go_scope.
Open Scope Z_scope.

Lemma lexes_later e p ts e1 : e <> EOI -> lexes e p ts e1 ->
  (e1 = e /\ forall q e2, exists more e3, lexes e2 (p ++ q) (ts ++ more) e3) \/ (forall q e2, lexes e2 (p ++ q) ts e1).
Proof.
  intros NE H. induction H as [l f v e' l' H|l f t l' ts e' H X IH].
  - destruct (ft_lex e NE _ _ _ _ H) as [A|A].
    + cbn in A. injection A as ->. left. split; auto. intros q e2. destruct (lexes_total e2 (l ++ q)) as (ts & e3 & L & _). exists ts, e3. exact L.
    + right. intros q e2. eapply lexes_end. apply A.
  - destruct (ft_lex e NE _ _ _ _ H) as [A|A]; [discriminate|]. destruct IH as [(-> & IH)|IH].
    + left. split; auto. intros q e2. destruct (IH q e2) as (more & e3 & L). exists more, e3. cbn [app]. eapply lexes_tok; [apply A|exact L].
    + right. intros q e2. eapply lexes_tok; [apply A|apply IH].
Qed.

(** the parser over the list of tokens *)
Notation list_doc e k ts := (parse_doc (list_nx (T := token) e) (list_un (T := token)) k ts).
Lemma list_yields {T} `{Zero T} (e : err) (l : list T) : yields (list_nx e) l l e.
Proof.
  exists []. split.
  - induction l as [|t l IH]; [constructor|]. apply (emits_cons (list_nx e) (t :: l) t l l []); auto. exists 0%nat. intros; reflexivity.
  - cofix CH. apply (stuck_intro (list_nx e) [] e []); [exists 0%nat; intros; reflexivity|exact CH].
Qed.
Lemma list_doc_total e ts : Forall tok_ok ts -> exists k r l', list_doc e k ts = Done (r, l').
Proof.
  intros F. destruct (doc_total (list_nx e) list_un e (fun i v => ex_intro _ 0%nat (fun m _ => eq_refl)) ts ts F (list_yields e ts)) as (r & i' & [n H] & _).
  exists n, r, i'. apply H. auto.
Qed.
Lemma list_doc_real {S} (rd : reader S) s text e ts e1 k r l' : reads rd s text e -> lexes e text ts e1 -> list_doc e1 k ts = Done (r, l') -> settles (Parse rd s) r.
Proof.
  intros RD LX H.
  assert (Y : yields (tok_next rd) (tokens_of s) ts e1) by (unfold tok_next, tokens_of; eapply lexes_yields; eauto).
  destruct (sim_doc (fun it l => yields (tok_next rd) it l e1) (tok_next rd) (list_nx e1) unread list_un) with (k := k) (s1 := tokens_of s) (s2 := ts) (a := r) (s2' := l') as (s1' & _ & O); auto.
  - apply (yields_sim (tok_next rd) e1).
  - intros s1 s2 v Y'. apply (yields_un (tok_next rd) unread e1 (unread_returns _)); auto.
  - eapply parse_settles. exact O.
Qed.

Lemma list_doc_mono e k ts r l' : list_doc e k ts = Done (r, l') -> returns (parse_doc (list_nx e) list_un) ts r l'.
Proof.
  intros H. destruct (sim_doc eq (list_nx (T := token) e) (list_nx e) list_un list_un) with (k := k) (s1 := ts) (s2 := ts) (a := r) (s2' := l') as (s1' & -> & O); auto.
  - intros k0 s1 s2 a s2' -> H0. exists s2'. split; auto. exists 0%nat. intros m _. exact H0.
  - intros s1 s2 v ->. reflexivity.
Qed.
Lemma parse_fault_list {S} (rd : reader S) s p e : reads rd s p e -> e <> EOI ->
  settles (Parse rd s) (zv, Some e) \/
  exists r k, settles (Parse rd s) r /\ forall q e2, exists ts e3 l', lexes e2 (p ++ q) ts e3 /\ list_doc e3 k ts = Done (r, l').
Proof.
  intros RD NE. destruct (tokens_yield rd s p e RD) as (ts & e1 & LX & F & _). destruct (list_doc_total e1 ts F) as (k & r & l' & H).
  pose proof (list_doc_real rd s p e ts e1 k r l' RD LX H) as ST.
  destruct (lexes_later e p ts e1 NE LX) as [(-> & L)|L].
  - destruct (ft_doc e NE _ _ _ _ H) as [A|A].
    + left. destruct (parse_total rd s p e RD) as [(e' & P)|(toks & t & rest & _ & _ & _ & P)]; pose proof (settles_det _ _ _ ST P) as ->; cbn in A; [injection A as ->; exact P|discriminate].
    + right. exists r, k. split; auto. intros q e2. destruct (L q e2) as (more & e3 & LX'). exists (ts ++ more), e3, (tail more l'). split; auto. apply A.
  - right. exists r, k. split; auto. intros q e2. exists ts, e1, l'. split; auto.
Qed.
Theorem parse_fault {S} (rd : reader S) s p e : reads rd s p e -> e <> EOI ->
  settles (Parse rd s) (zv, Some e) \/
  exists r, settles (Parse rd s) r /\ forall S' (rd' : reader S') s' q e2, reads rd' s' (p ++ q) e2 -> settles (Parse rd' s') r.
Proof.
  intros RD NE. destruct (parse_fault_list rd s p e RD NE) as [A|(r & k & P & L)]; [left; exact A|right].
  exists r. split; auto. intros S' rd' s' q e2 RD'. destruct (L q e2) as (ts & e3 & l' & LX & H). eapply list_doc_real; eauto.
Qed.

(** ** Tokens of a longer text *)
Lemma found_nonempty e u t text : found e u t text -> u <> [].
Proof.
  destruct 1 as [u t rest I|u t rest I _|i f x rest L _ _|parts s u rest _ _]; [| | |discriminate].
  - cbn in I. repeat (destruct I as [I|I]; [injection I as <- <-; discriminate|]). destruct I.
  - cbn in I. repeat (destruct I as [I|I]; [injection I as <- <-; discriminate|]). destruct I.
  - destruct (number_start _ _ _ L) as (c & s & -> & _). discriminate.
Qed.
Lemma tokenized_nil e toks rest : tokenized e [] toks rest -> toks = [] /\ rest = [].
Proof.
  intros H. remember (@nil Z) as l eqn:E. destruct H as [rest|c text toks rest W X|u t text toks rest T X]; subst; auto; [discriminate|].
  exfalso. apply app_eq_nil in E as [-> _]. exact (found_nonempty _ _ _ _ T eq_refl).
Qed.
Definition whole (t : token) : Prop := In (ttyp t) [tOBracket; tCBracket; tOBrace; tCBrace; tComma; tColon; tString].
Lemma found_later e e2 u t text q : found e u t text -> whole t \/ text <> [] \/ e <> EOI -> found e2 u t (text ++ q).
Proof.
  intros H D. destruct H as [u t rest I|u t rest I E|i f x rest L NB E|parts s u rest SP LE].
  - apply fd_punct; auto.
  - apply fd_word; auto. destruct rest as [|c rest]; [|exact E]. exfalso. subst e.
    destruct D as [D|[D|D]]; try congruence. cbn in I. unfold whole in D. repeat (destruct I as [I|I]; [injection I as <- <-; cbn in D; repeat (destruct D as [D|D]; [discriminate|]); destruct D|]). destruct I.
  - assert (NN : rest <> []). { intros ->. specialize (E eq_refl). subst e. destruct D as [D|[D|D]]; try congruence. unfold whole in D. cbn in D. repeat (destruct D as [D|D]; [discriminate|]). destruct D. }
    apply fd_number; auto; [destruct rest; [congruence|exact NB]|]. intros K. apply app_eq_nil in K as [K _]. congruence.
  - apply fd_string; auto.
Qed.
(** all tokens, when the last one is complete *)
Lemma tokenized_later e e2 text toks rest q : tokenized e text toks rest -> whole (last toks tokComma) \/ rest <> [] \/ e <> EOI -> tokenized e2 (text ++ q) toks (rest ++ q).
Proof.
  induction 1 as [rest|c text toks rest W X IH|u t text toks rest T X IH]; intros D.
  - constructor.
  - cbn [app]. apply tz_ws; auto.
  - rewrite <- app_assoc. apply tz_tok.
    + eapply found_later; [exact T|]. destruct D as [D|[D|D]]; auto.
      * destruct toks as [|t2 toks]; [left; exact D|]. right. left. intros ->. apply tokenized_nil in X as [X _]. discriminate.
      * right. left. intros ->. apply tokenized_nil in X as [_ X]. congruence.
    + apply IH. destruct D as [D|D]; auto. destruct toks; auto. left. unfold whole. cbn. auto 10.
Qed.
Lemma gmembers_close b seen ts m : gmembers b seen ts m -> exists ts' c, ts = ts' ++ [c] /\ ttyp c = tCBrace.
Proof.
  induction 1 as [seen k colon ts t c _ _ _ C|seen k colon ts t cm c _ _ _ _ _ C|seen k colon ts t cm ts' m _ _ _ _ _ IH].
  - exists (mkTok tString k :: colon :: ts), c. auto.
  - exists (mkTok tString k :: colon :: ts ++ [cm]), c. cbn. rewrite <- app_assoc. auto.
  - destruct IH as (ts2 & c & -> & C). exists (mkTok tString k :: colon :: ts ++ cm :: ts2), c. cbn. rewrite <- app_assoc. auto.
Qed.
Lemma gelems_close b ts l : gelems b ts l -> exists ts' c, ts = ts' ++ [c] /\ ttyp c = tCBracket.
Proof.
  induction 1 as [ts t c _ C|ts t cm ts' l _ _ _ IH]; [exists ts, c; auto|].
  destruct IH as (ts2 & c & -> & C). exists (ts ++ cm :: ts2), c. rewrite <- app_assoc. auto.
Qed.
Lemma gval_close b ts t : gval b ts t -> container t -> exists ts' c, ts = ts' ++ [c] /\ (ttyp c = tCBrace \/ ttyp c = tCBracket).
Proof.
  destruct 1 as [s|s| | |s|t s _ _|o c O C|o ts m O GM|o c O C|o ts l O _ GE]; intros K; try destruct K.
  - exists [o], c. auto.
  - destruct (gmembers_close _ _ _ _ GM) as (ts' & c & -> & C). exists (o :: ts'), c. auto.
  - exists [o], c. auto.
  - destruct (gelems_close _ _ _ GE) as (ts' & c & -> & C). exists (o :: ts'), c. auto.
Qed.
Lemma gval_whole b ts t : gval b ts t -> container t -> whole (last ts tokComma).
Proof. intros G C. destruct (gval_close b ts t G C) as (ts' & c & -> & D). rewrite last_last. unfold whole. destruct D as [-> | ->]; cbn; auto 10. Qed.

(** what is left after the tokens, up to white space *)
Lemma tokenized_first e text t toks rest : tokenized e text (t :: toks) rest ->
  exists w u text', text = w ++ u ++ text' /\ Forall (fun c => isws c = true) w /\ found e u t text' /\ tokenized e text' toks rest.
Proof.
  intros H. remember (t :: toks) as ts eqn:E. induction H as [rest|c text ts rest W X IH|u t' text ts rest T X _]; [discriminate| |].
  - destruct (IH E) as (w & u & text' & -> & F & FD & TZ). exists (c :: w), u, text'. repeat split; auto. constructor; auto. unfold isws. unfold wsc in W. lia.
  - injection E as -> ->. exists [], u, text. auto.
Qed.
Lemma tokenized_none e text rest : tokenized e text [] rest -> exists w, text = w ++ rest /\ Forall wsc w.
Proof.
  intros H. remember (@nil token) as ts eqn:E. induction H as [rest|c text ts rest W X IH|u t' text ts rest T X _]; [exists []; auto| |discriminate].
  destruct (IH E) as (w & -> & F). exists (c :: w). auto.
Qed.
Lemma split_same {A} (P : A -> Prop) (w1 r1 w2 r2 : list A) : w1 ++ r1 = w2 ++ r2 -> Forall P w1 -> Forall P w2 -> exists w, Forall P w /\ (r1 = w ++ r2 \/ r2 = w ++ r1).
Proof.
  revert w2. induction w1 as [|a w1 IH]; intros w2 E F1 F2; cbn in E; [exists w2; auto|].
  destruct w2 as [|b w2]; cbn in E; [exists (a :: w1); auto|]. injection E as -> E. inversion F1; inversion F2; subst. eapply IH; eauto.
Qed.
Lemma tokenized_rest e text toks r1 r2 : tokenized e text toks r1 -> tokenized e text toks r2 -> exists w, Forall wsc w /\ (r1 = w ++ r2 \/ r2 = w ++ r1).
Proof.
  revert text. induction toks as [|t toks IH]; intros text H1 H2.
  - destruct (tokenized_none _ _ _ H1) as (w1 & E1 & F1). destruct (tokenized_none _ _ _ H2) as (w2 & E2 & F2). subst text. eapply split_same; eauto.
  - destruct (tokenized_first _ _ _ _ _ H1) as (w1 & u1 & x1 & E1 & F1 & D1 & T1). destruct (tokenized_first _ _ _ _ _ H2) as (w2 & u2 & x2 & E2 & F2 & D2 & T2).
    pose proof (found_lex e u1 t w1 x1 (length w1 + length u1 + length x1 + 2 + (length w2 + length u2 + length x2 + 2)) D1 F1 ltac:(lia)) as L1.
    pose proof (found_lex e u2 t w2 x2 (length w1 + length u1 + length x1 + 2 + (length w2 + length u2 + length x2 + 2)) D2 F2 ltac:(lia)) as L2.
    rewrite <- E1 in L1. rewrite <- E2 in L2. rewrite L1 in L2. injection L2 as <-. eapply IH; eauto.
Qed.

(** the tokens of two readings of a text *)
Lemma tokens_agree e text toks1 r1 toks2 r2 : tokenized e text toks1 r1 -> tokenized e text toks2 r2 ->
  exists m1 m2, toks1 ++ m1 = toks2 ++ m2 /\ Forall tok_ok (toks1 ++ m1).
Proof.
  intros T1 T2. destruct (lexes_total e r1) as (m1 & e1 & L1 & _). destruct (lexes_total e r2) as (m2 & e2 & L2 & _).
  pose proof (tokenized_lexes _ _ _ _ _ _ T1 L1) as X1. pose proof (tokenized_lexes _ _ _ _ _ _ T2 L2) as X2.
  destruct (lexes_det _ _ _ _ _ _ X1 X2) as [E _]. exists m1, m2. split; auto. eapply lexes_ok; eauto.
Qed.

Lemma document_exact text t e toks t' rest p q : document text t -> text = p ++ q -> q <> [] -> tokenized e p toks rest -> gval false toks t' -> container t' -> False.
Proof.
  intros (toksD & TD & GD & CD & LW) -> NQ TP GP CP.
  pose proof (tokenized_later e EOI p toks rest q TP (or_introl (gval_whole _ _ _ GP CP))) as TQ.
  destruct (tokens_agree _ _ _ _ _ _ TD TQ) as (m1 & m2 & E & OK).
  assert (toksD = toks) as -> by (eapply prefix_free; eauto).
  destruct (tokenized_rest _ _ _ _ _ TD TQ) as (w & FW & [X|X]).
  - symmetry in X. apply app_eq_nil in X as [_ X]. apply app_eq_nil in X as [_ X]. congruence.
  - rewrite app_nil_r in X. apply LW. destruct (exists_last NQ) as (q' & c & ->). rewrite app_assoc, last_last. subst w. rewrite app_assoc in FW. apply Forall_app in FW as [_ FW]. inversion FW; auto.
Qed.

Theorem parse_cut {S} (rd : reader S) s text t p e : document text t -> cut_short p text -> reads rd s p e ->
  exists e', settles (Parse rd s) (zv, Some e') /\ e' <> EOI /\ (e <> EOI -> e' = e).
Proof.
  intros D (q & NQ & E) RD.
  destruct (parse_total rd s p e RD) as [(e' & P)|(toks & t' & rest & TZ & G & C & _)]; [|exfalso; eapply document_exact; eauto].
  exists e'. split; auto. split.
  - destruct (iterate_agrees rd s p e RD) as (it & vs & e2 & _ & _ & [(N & P2)|(_ & v & P2 & _)]); pose proof (settles_det _ _ _ P P2) as X; [injection X as ->; exact N|discriminate].
  - intros NE. destruct (parse_fault_list rd s p e RD NE) as [P2|(r & k & P2 & L)]; [pose proof (settles_det _ _ _ P P2) as X; injection X as ->; auto|exfalso].
    destruct D as (toksD & TD & GD & CD & _). destruct (L q EOI) as (ts & e3 & l' & LX & H). rewrite <- E in LX.
    pose proof (settles_det _ _ _ P P2) as X. subst r. apply list_doc_mono in H.
    destruct (lexes_total EOI []) as (m & e4 & LM & _). pose proof (tokenized_lexes _ _ _ _ _ _ TD LM) as LX2.
    destruct (lexes_det _ _ _ _ _ _ LX LX2) as [-> ->]. pose proof (lexes_ok _ _ _ _ LX2) as F. apply Forall_app in F as [F _].
    destruct (doc_accepts (list_nx e4) list_un e4 (fun i v => ex_intro _ 0%nat (fun m _ => eq_refl)) false toksD t (toksD ++ m) m GD CD F (list_yields _ _)) as (i' & H2).
    destruct H as [n1 H1], H2 as [n2 H2]. specialize (H1 (n1 + n2)%nat ltac:(lia)). rewrite H2 in H1 by lia. discriminate.
Qed.

(** ** Iterate *)
Lemma container_dec t : container t \/ ~ container t.
Proof. destruct t; cbn; auto. Qed.
Lemma prefix_free2 ts1 t1 r1 ts2 t2 r2 : gval false ts1 t1 -> gval false ts2 t2 -> ts1 ++ r1 = ts2 ++ r2 -> Forall tok_ok (ts1 ++ r1) -> ts1 = ts2 /\ r1 = r2 /\ value_of t1 = value_of t2.
Proof.
  intros G1 G2 E F. assert (ts1 = ts2) as <- by (eapply prefix_free; eauto). split; auto. split; [apply app_inv_head in E; auto|].
  assert (F1 : Forall tok_ok ts1) by (apply Forall_app in F; tauto).
  pose proof (proj1 (accepts lnx lun EOI (fun i v => ex_intro _ 0%nat (fun m _ => eq_refl)) false) ts1 t1 G1 F1) as A1.
  pose proof (proj1 (accepts lnx lun EOI (fun i v => ex_intro _ 0%nat (fun m _ => eq_refl)) false) ts1 t2 G2 F1) as A2.
  destruct (A1 (ts1 ++ r1) r1 (lnx_yields _)) as (i1 & O1 & Y1). destruct (A2 (ts1 ++ r1) r1 (lnx_yields _)) as (i2 & O2 & Y2).
  destruct (ok2_det _ _ _ _ _ O1 O2) as [Q _]. injection Q. auto.
Qed.
(** complete elements, followed by a comma, at the beginning of the elements of an array *)
Lemma elems_go_on ts2 l2 : gsome false ts2 l2 -> forall ts1 l1 r1 cm m, gelems false ts1 l1 -> ttyp cm = tComma -> ts1 ++ r1 = ts2 ++ cm :: m -> Forall tok_ok (ts1 ++ r1) ->
  exists ts3 l3, gelems false ts3 l3 /\ ts3 ++ r1 = m /\ map value_of l1 = map value_of l2 ++ map value_of l3.
Proof.
  induction 1 as [ts t G|ts t cm2 ts' l G CM GS IH]; intros ts1 l1 r1 cm m GE CMT E F.
  - destruct GE as [tsa ta c GA C|tsa ta cma tsb l1 GA C GE]; rewrite <- app_assoc in *; cbn [app] in *;
      destruct (prefix_free2 _ _ _ _ _ _ GA G E F) as (-> & E2 & V); injection E2 as -> E2; [congruence|].
    exists tsb, l1. cbn. rewrite V. auto.
  - rewrite <- app_assoc in E. cbn [app] in E.
    destruct GE as [tsa ta c GA C|tsa ta cma tsb l1 GA C GE]; rewrite <- app_assoc in *; cbn [app] in *;
      destruct (prefix_free2 _ _ _ _ _ _ GA G E F) as (-> & E2 & V); injection E2 as -> E2; [congruence|].
    apply Forall_app in F as [_ F]. inversion F as [|? ? _ F2]; subst. destruct (IH _ _ _ _ _ GE CMT E2 F2) as (ts3 & l3 & G3 & E3 & V3).
    exists ts3, l3. split; auto. split; auto. cbn. rewrite V, V3. reflexivity.
Qed.
Lemma elems_begin ts2 l2 : gsome false ts2 l2 -> forall ts1 l1 r1 m, gelems false ts1 l1 -> ts1 ++ r1 = ts2 ++ m -> Forall tok_ok (ts1 ++ r1) ->
  exists l3, map value_of l1 = map value_of l2 ++ l3.
Proof.
  induction 1 as [ts t G|ts t cm2 ts' l G CM GS IH]; intros ts1 l1 r1 m GE E F.
  - destruct GE as [tsa ta c GA C|tsa ta cma tsb l1 GA C GE]; rewrite <- app_assoc in *; cbn [app] in *;
      destruct (prefix_free2 _ _ _ _ _ _ GA G E F) as (-> & E2 & V); cbn; rewrite V; eauto.
  - rewrite <- app_assoc in E. cbn [app] in E.
    destruct GE as [tsa ta c GA C|tsa ta cma tsb l1 GA C GE]; rewrite <- app_assoc in *; cbn [app] in *;
      destruct (prefix_free2 _ _ _ _ _ _ GA G E F) as (-> & E2 & V); injection E2 as -> E2; [congruence|].
    apply Forall_app in F as [_ F]. inversion F as [|? ? _ F2]; subst. destruct (IH _ _ _ _ GE E2 F2) as (l3 & V3).
    exists l3. cbn. rewrite V, V3. reflexivity.
Qed.
Lemma gval_single b ts t0 t : gval b (ts ++ [t0]) t -> ~ whole t0 -> ts = [].
Proof.
  intros G N. destruct (container_dec t) as [C|C].
  - exfalso. apply N. pose proof (gval_whole _ _ _ G C) as W. rewrite last_last in W. exact W.
  - assert (L : length (ts ++ [t0]) = 1%nat). { destruct G; try reflexivity; exfalso; apply C; exact Logic.I. }
    rewrite app_length in L. cbn in L. destruct ts; [reflexivity|cbn in L; lia].
Qed.
Lemma gsome_last ts l t0 : gsome false (ts ++ [t0]) l -> ~ whole t0 ->
  exists l0 t, l = l0 ++ [t] /\ gval false [t0] t /\ ((ts = [] /\ l0 = []) \/ exists ts1 cm, ts = ts1 ++ [cm] /\ ttyp cm = tComma /\ gsome false ts1 l0).
Proof.
  intros G N. remember (ts ++ [t0]) as tt eqn:E. revert ts E. induction G as [tt t G|ts1 t cm ts2 l G CM GS IH]; intros ts E.
  - subst tt. pose proof (gval_single _ _ _ _ G N) as ->. exists [], t. auto.
  - destruct (gsome_ne false ts2 l GS) as (x & r & E2). destruct (exists_last (l := ts2)) as (ts2' & y & E3); [rewrite E2; discriminate|].
    rewrite E3 in E. change (ts1 ++ cm :: ts2' ++ [y]) with (ts1 ++ (cm :: ts2') ++ [y]) in E. rewrite app_assoc in E. apply app_inj_tail in E as [<- ->].
    destruct (IH ts2' E3) as (l0 & t' & -> & G' & [(-> & ->)|(ts3 & cm3 & -> & C3 & GS3)]).
    + exists [t], t'. split; auto. split; auto. right. exists ts1, cm. split; auto. split; auto. constructor; auto.
    + exists (t :: l0), t'. split; auto. split; auto. right. exists (ts1 ++ cm :: ts3), cm3. split; [rewrite <- app_assoc; reflexivity|]. split; auto. apply gs_more; auto.
Qed.

Lemma first_firstn {A} (l1 l2 l3 : list A) : l1 = l2 ++ l3 -> l2 = firstn (length l2) l1.
Proof. intros ->. rewrite firstn_app, Nat.sub_diag, firstn_all, firstn_O, app_nil_r. reflexivity. Qed.

(** the same tokens in the document *)
Lemma so_far_first text t toks l rest : document text t -> tokenized EOI text toks rest -> array_so_far toks l -> first_elements (map value_of l) t.
Proof.
  intros (toksD & TD & GD & CD & _) TZ (o & ts & -> & O & HD & GS). destruct (tokens_agree _ _ _ _ _ _ TD TZ) as (m1 & m2 & E & F).
  destruct GD as [s|s| | |s|t s _ _|o' c O' C|o' ts' m O' GM|o' c O' C|o' ts' l' O' HD' GE]; try destruct CD; cbn [app] in E; injection E as -> E; try congruence.
  - exfalso. destruct (gsome_ne _ _ _ GS) as (x & r & ->). injection E as -> _. cbn in HD. congruence.
  - cbn [app] in F. inversion F as [|? ? _ F2]; subst. destruct (elems_begin _ _ GS _ _ _ _ GE E F2) as (l3 & V). exists (length (map value_of l)). cbn. eapply first_firstn; eauto.
Qed.

(** the next token of the document, at a place where the beginning of it ends in [u] *)
Lemma next_token u t0 q u2 t2 text2 : found EOI u t0 [] -> ~ whole t0 -> found EOI u2 t2 text2 -> u2 ++ text2 = u ++ q ->
  t2 = t0 \/ (t0 = mkTok tNumber u /\ t2 = mkTok tNumber u2 /\ cut_short u u2).
Proof.
  intros FD N FD2 E.
  assert (W : forall (w : list Z) (t : token), In (w, t) words -> exists c w', w = c :: w' /\ (c = 116 \/ c = 102 \/ c = 110)).
  { intros w t I. cbn in I. repeat (destruct I as [I|I]; [injection I as <- <-; eauto 6|]). destruct I. }
  assert (P : forall (w : list Z) (t : token), In (w, t) punctuation -> exists c, w = [c] /\ (c = 91 \/ c = 93 \/ c = 123 \/ c = 125 \/ c = 44 \/ c = 58)).
  { intros w t I. cbn in I. repeat (destruct I as [I|I]; [injection I as <- <-; eexists; split; [reflexivity|lia]|]). destruct I. }
  remember (@nil Z) as nl eqn:EN. destruct FD as [u t rest I|u t rest I _|i f x rest L NB _|parts s u rest SP LE].
  - exfalso. apply N. unfold whole. cbn in I. repeat (destruct I as [I|I]; [injection I as <- <-; cbn; auto 10|]). destruct I.
  - left. destruct (W _ _ I) as (c & u' & -> & C). cbn [app] in E.
    destruct FD2 as [v t2 text2 I2|v t2 text2 I2 _|i f x text2 L2 _ _|parts s v text2 SP LE].
    + destruct (P _ _ I2) as (c2 & -> & C2). injection E as -> _. lia.
    + cbn in I, I2. repeat (destruct I as [I|I]; [injection I as <- <- <-; repeat (destruct I2 as [I2|I2]; [injection I2 as <- <-; first [reflexivity|discriminate]|]); destruct I2|]). destruct I.
    + destruct (number_start _ _ _ L2) as (c2 & s2 & E2 & C2). rewrite E2 in E. injection E as -> _. unfold digitc in C2. lia.
    + injection E as <- _. lia.
  - destruct (number_start _ _ _ L) as (c & u' & EU & C).
    inversion FD2 as [v t2' text2' I2|v t2' text2' I2 _|i2 f2 x2 text2' L2 NB2 NE2|parts s v text2' SP LE]; subst.
    + exfalso. destruct (P _ _ I2) as (c2 & -> & C2). rewrite EU in E. injection E as -> _. unfold digitc in C. lia.
    + exfalso. destruct (W _ _ I2) as (c2 & w' & -> & C2). rewrite EU in E. injection E as -> _. unfold digitc in C. lia.
    + remember (i ++ f ++ x) as u eqn:HU. remember (i2 ++ f2 ++ x2) as u2 eqn:HU2.
      assert (D : (exists z, u2 = u ++ z) \/ (exists z, z <> [] /\ u = u2 ++ z /\ text2 = z ++ q)).
      { clear - E. revert u2 E. induction u as [|a u IH]; intros u2 E; [left; exists u2; reflexivity|]. destruct u2 as [|b u2]; cbn in E.
        - right. exists (a :: u). split; [discriminate|]. auto.
        - injection E as -> E. destruct (IH _ E) as [(z & ->)|(z & NZ & -> & ->)]; [left; exists z; reflexivity|right; exists z; auto]. }
      destruct D as [(z & EZ)|(z & NZ & EZ & ET)].
      * destruct z as [|c' z]; [left; rewrite EZ, app_nil_r; reflexivity|]. right. split; auto. split; auto. exists (c' :: z). split; [discriminate|exact EZ].
      * exfalso. assert (FZ : found EOI u2 (mkTok tNumber u2) z).
        { rewrite HU2. apply fd_number; auto. destruct z as [|c' z]; [congruence|]. subst text2. exact NB2. }
        assert (FU : found EOI u (mkTok tNumber u) []) by (rewrite HU; apply fd_number; auto).
        pose proof (found_lex EOI u2 _ [] z (length u2 + length z + 2) FZ (Forall_nil _) ltac:(cbn; lia)) as L3.
        pose proof (found_lex EOI u _ [] [] (length u2 + length z + 2) FU (Forall_nil _) ltac:(cbn; rewrite EZ, app_length; lia)) as L4.
        cbn [app] in L3, L4. rewrite app_nil_r, EZ, L3 in L4. injection L4 as _ ->. congruence.
    + exfalso. rewrite EU in E. injection E as <- _. unfold digitc in C. lia.
  - exfalso. apply N. unfold whole. cbn. auto 10.
Qed.

Lemma tokenized_app e text ts1 mid ts2 rest : tokenized e text ts1 mid -> tokenized e mid ts2 rest -> tokenized e text (ts1 ++ ts2) rest.
Proof. induction 1; intros X; cbn [app]; [exact X|apply tz_ws; auto|apply tz_tok; auto]. Qed.
Lemma whole_dec t : whole t \/ ~ whole t.
Proof. unfold whole. destruct (ttyp t); cbn; first [left; tauto|right; intuition discriminate]. Qed.
Lemma found_head e u t text : found e u t text -> exists c u', u = c :: u' /\ isws c = false.
Proof.
  destruct 1 as [u t rest I|u t rest I _|i f x rest L _ _|parts s u rest _ _].
  - cbn in I. repeat (destruct I as [I|I]; [injection I as <- <-; eexists; eexists; split; reflexivity|]). destruct I.
  - cbn in I. repeat (destruct I as [I|I]; [injection I as <- <-; eexists; eexists; split; reflexivity|]). destruct I.
  - destruct (number_start _ _ _ L) as (c & s & -> & D). exists c, s. split; auto. unfold isws, digitc in *. lia.
  - eexists; eexists; split; reflexivity.
Qed.
Lemma same_ws w1 c1 r1 w2 c2 r2 : w1 ++ c1 :: r1 = w2 ++ c2 :: r2 -> Forall (fun c => isws c = true) w1 -> Forall (fun c => isws c = true) w2 -> isws c1 = false -> isws c2 = false -> c1 :: r1 = c2 :: r2.
Proof.
  revert w2. induction w1 as [|a w1 IH]; intros w2 E F1 F2 C1 C2; destruct w2 as [|b w2]; cbn in E; auto.
  - injection E as -> _. inversion F2; subst. congruence.
  - injection E as -> _. inversion F1; subst. congruence.
  - injection E as _ E. inversion F1; inversion F2; subst. eauto.
Qed.

Lemma lexes_first e text t ts e' : lexes e text (t :: ts) e' -> exists w u x, text = w ++ u ++ x /\ Forall (fun c => isws c = true) w /\ found e u t x.
Proof.
  intros H. inversion H as [|l f t' l' ts' e1 L X]; subst. destruct (lex_found _ _ _ _ _ L) as (w & u & E & FW & FD). exists w, u, l'. split; auto. split; auto.
  eapply Forall_impl; [|exact FW]. intros a. unfold isws, wsc. lia.
Qed.
(** a document cut short at its end of file, where the last token is a number or a word that touches the cut *)
Lemma so_far_cut text t p q toks l rest : document text t -> text = p ++ q -> tokenized EOI p toks rest -> array_so_far toks l ->
  first_elements (map value_of l) t \/ cut_number (map value_of l) t.
Proof.
  intros D -> TZ AS. destruct (whole_dec (last toks tokComma)) as [W|W].
  { left. eapply so_far_first; [exact D| |exact AS]. eapply tokenized_later; eauto. }
  pose proof AS as (o & ts & ET & O & HD & GS). assert (NT : ts <> []) by (destruct (gsome_ne _ _ _ GS) as (x & r & ->); discriminate).
  destruct (exists_last NT) as (ts0 & t0 & E0). clear NT. subst toks ts.
  change (o :: ts0 ++ [t0]) with ((o :: ts0) ++ [t0]) in *. rewrite last_last in W.
  destruct (tokenized_prefix _ _ _ _ _ TZ) as (mid & T0 & T1).
  destruct (tokenized_first _ _ _ _ _ T1) as (w & u & x & EM & FW & FD & TN).
  destruct (found_head _ _ _ _ FD) as (cu & u' & EU & CU).
  assert (TQ : tokenized EOI (p ++ q) (o :: ts0) (mid ++ q)).
  { eapply tokenized_later; [exact T0|]. right. left. subst mid u. intros K. apply app_eq_nil in K as [_ K]. discriminate. }
  destruct x as [|cx x].
  2: { left. eapply so_far_first; [exact D| |exact AS]. eapply tokenized_app; [exact TQ|]. subst mid. rewrite <- !app_assoc. apply (tokenized_wss EOI w).
       - eapply Forall_impl; [|exact FW]. intros a. unfold isws, wsc. lia.
       - apply tz_tok; [eapply found_later; [exact FD|right; left; discriminate]|]. apply (tz_nil EOI ((cx :: x) ++ q)). }
  rewrite app_nil_r in EM. destruct (gsome_last _ _ _ GS W) as (l0 & tl & -> & GL & CASE).
  pose proof D as (toksD & TD & GD & CD & _). destruct (lexes_total EOI (mid ++ q)) as (m2 & e2 & LM & _).
  pose proof (tokenized_lexes _ _ _ _ _ _ TQ LM) as X2. destruct (lexes_total EOI []) as (m1 & e1 & LN & _).
  pose proof (tokenized_lexes _ _ _ _ _ _ TD LN) as X1. destruct (lexes_det _ _ _ _ _ _ X1 X2) as [E _]. pose proof (lexes_ok _ _ _ _ X1) as F.
  assert (NEXT : forall t2 m, m2 = t2 :: m -> t2 = t0 \/ (t0 = mkTok tNumber u /\ exists u2, t2 = mkTok tNumber u2 /\ cut_short u u2)).
  { intros t2 m ->. destruct (lexes_first _ _ _ _ _ LM) as (w2 & u2 & x2 & E2 & FW2 & FD2). destruct (found_head _ _ _ _ FD2) as (c2 & u2' & EU2 & C2).
    assert (ES : u2 ++ x2 = u ++ q).
    { subst mid u u2. rewrite <- app_assoc in E2. symmetry. eapply (same_ws w cu (u' ++ q) w2 c2 (u2' ++ x2)); eauto. }
    destruct (next_token u t0 q u2 t2 x2 FD W FD2 ES) as [->|(A & B & C)]; [left; auto|right; eauto]. }
  (* the elements of the document from the cut one on *)
  assert (K : exists lD, t = JArr lD /\ exists ts3 l3, gelems false ts3 l3 /\ ts3 ++ m1 = m2 /\ map value_of lD = map value_of l0 ++ map value_of l3).
  { assert (NB : hd tCBracket (map ttyp (ts0 ++ m2)) <> tCBracket \/ ts0 = []).
    { destruct ts0 as [|y ts0]; [right; reflexivity|left; exact HD]. }
    destruct GD as [s|s| | |s|t s _ _|o' c O' C|o' ts' m O' GM|o' c O' C|o' ts' l' O' HD' GE]; try destruct CD; cbn [app] in E; injection E as -> E; try congruence.
    - (* the empty array *)
      exfalso. destruct ts0 as [|y ts0].
      + cbn [app] in E. subst m2. destruct (NEXT c m1 eq_refl) as [->|(_ & u2 & -> & _)]; [|discriminate]. apply W. unfold whole. rewrite C. cbn. auto.
      + cbn [app] in E. injection E as -> _. cbn in HD. congruence.
    - exists l'. split; auto. cbn [app] in F. inversion F as [|? ? _ F2]; subst.
      destruct CASE as [(-> & ->)|(ts1 & cm & -> & CM & GS1)].
      + exists ts', l'. cbn in E |- *. auto.
      + rewrite <- app_assoc in E. cbn [app] in E. exact (elems_go_on _ _ GS1 _ _ _ _ _ GE CM E F2). }
  destruct K as (lD & -> & ts3 & l3 & GE & E3 & V).
  assert (FE : exists te le r3, l3 = te :: le /\ ts3 ++ m1 = r3 /\ exists tse re, r3 = tse ++ re /\ gval false tse te).
  { destruct GE as [tse te c GT C|tse te cm tse' le GT C GE]; (do 3 eexists; split; [reflexivity|]; split; [reflexivity|]); exists tse; eexists; (split; [rewrite <- app_assoc; reflexivity|exact GT]). }
  destruct FE as (te & le & r3 & -> & <- & tse & re & ER & GT).
  assert (F3 : Forall tok_ok m2) by (rewrite E in F; apply Forall_app in F; tauto). rewrite E3 in ER.
  assert (exists t2 m, m2 = t2 :: m) as (t2 & m & EM2) by (destruct (gval_ne _ _ _ GT) as (a & b & ->); rewrite ER; cbn; eauto).
  destruct (NEXT t2 m EM2) as [->|(ET0 & u2 & ET2 & CS)].
  - left. exists (S (length l0)). cbn [elements]. rewrite V. rewrite ER in F3.
    assert (E4 : tse ++ re = [t0] ++ m) by (rewrite <- ER, EM2; reflexivity).
    destruct (prefix_free2 _ _ _ _ _ _ GT GL E4 F3) as (_ & _ & VV). cbn [map]. rewrite VV, map_app. cbn [map].
    change (value_of tl :: map value_of le) with ([value_of tl] ++ map value_of le). rewrite app_assoc.
    replace (S (length l0)) with (length (map value_of l0 ++ [value_of tl])) by (rewrite app_length, map_length; cbn; lia). eapply first_firstn. reflexivity.
  - right. rewrite ER in F3. assert (E4 : tse ++ re = [t2] ++ m) by (rewrite <- ER, EM2; reflexivity). rewrite ET2 in E4.
    destruct (prefix_free2 _ _ _ _ _ _ GT (g_num false u2) E4 F3) as (_ & _ & VV).
    rewrite ET0 in GL. assert (tl = JNum u) as ->. { inversion GL; subst; auto; try discriminate. match goal with H : stray tNumber |- _ => destruct H as [H|[H|[H|H]]]; discriminate end. }
    exists (length l0), u, u2. cbn [elements]. rewrite V. split; [|split; auto].
    + rewrite nth_error_app2 by (rewrite map_length; lia). rewrite map_length, Nat.sub_diag. cbn. rewrite VV. reflexivity.
    + rewrite map_app. cbn [map]. f_equal. rewrite <- (map_length value_of l0). eapply first_firstn. reflexivity.
Qed.

Theorem iterate_cut {S} (rd : reader S) s text t p e : document text t -> cut_short p text -> reads rd s p e ->
  exists it vs e', settles (Iterate rd s) it /\ yields (doc_next (tok_next rd) unread) it vs e' /\ e' <> EOI /\
    (e <> EOI -> e' = e /\ first_elements vs t) /\ (e = EOI -> first_elements vs t \/ cut_number vs t).
Proof.
  intros D CS RD. destruct (parse_cut rd s text t p e D CS RD) as (e' & P & N & PE).
  destruct (iterate_agrees rd s p e RD) as (it & vs & e2 & IT & YI & [(N2 & P2)|(_ & v & P2 & _)]); pose proof (settles_det _ _ _ P P2) as X; [injection X as <-|discriminate].
  destruct CS as (q & NQ & EQ).
  exists it, vs, e'. split; auto. split; auto. split; auto.
  assert (Z : first_elements [] t) by (exists 0%nat; reflexivity).
  destruct (iterate_sound rd s p e it vs e' RD IT YI N) as [->|(toks & l & rest & TZ & AS & ->)]; [split; auto|]. split.
  - intros NE. split; auto. eapply so_far_first; [exact D| |exact AS]. subst text. eapply tokenized_later; eauto.
  - intros ->. eapply so_far_cut; eauto.
Qed.
