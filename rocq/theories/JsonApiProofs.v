(** The lexer functions, Parse, Iterate and Write as their callers see them. *)
From Verif Require Import Base Iter IterSpec IterProofs Readers ReaderSpec Writer Union Rest Json JsonLex JsonParse JsonWrite JsonSpec JsonSim JsonLexProofs
  JsonStrProofs JsonTokProofs JsonParseProofs JsonDocProofs JsonWriteProofs PropsReader.
From Coq Require Import ZifyBool.
Open Scope go_scope.
Open Scope Z_scope.

Section L.
  Context {S : Type} (fn : stepfn S Z).
  Lemma via_list (f : forall I, stepfn I Z -> (I -> Z -> I) -> stepfn I token) it l e k a l' :
    (forall I1 I2 (R : I1 -> I2 -> Prop) nx1 nx2 un1 un2, sim R nx1 nx2 -> (forall s1 s2 v, R s1 s2 -> R (un1 s1 v) (un2 s2 v)) -> sim R (f I1 nx1 un1) (f I2 nx2 un2)) ->
    yields (next fn) it l e -> f _ (list_nx e) list_un k l = Done (a, l') ->
    exists it', yields (next fn) it' l' e /\ returns (f _ (next fn) unread) it a it'.
  Proof.
    intros SIM Y H.
    destruct (SIM _ _ (fun s l => yields (next fn) s l e) (next fn) (list_nx e) unread list_un
      (yields_sim (next fn) e) (fun s1 s2 v => yields_un (next fn) unread e (unread_returns fn) s1 s2 v) k it l a l' Y H) as (i1 & Y1 & O).
    exists i1. split; auto.
  Qed.

  Lemma number_accepted it i f x rest e : yields (next fn) it ((i ++ f ++ x) ++ rest) e -> lex_number i f x -> number_ends f x rest -> (rest = [] -> e = EOI) ->
    exists it', returns (lexNumber (next fn) unread) it (mkTok tNumber (i ++ f ++ x), None) it' /\ yields (next fn) it' rest e.
  Proof.
    intros Y LN NN EE. assert (P := pnumber_ok e i f x rest LN EE NN). pose proof (lex_number_nonempty _ _ _ LN) as (_ & _ & ASC).
    destruct (number_start _ _ _ LN) as (c0 & s0 & E0 & C0). rewrite E0 in *. cbn [app] in *.
    pose proof (number_eq e c0 (s0 ++ rest) _ (Nat.lt_succ_diag_r _)) as NE. rewrite P in NE. cbn [res] in NE. rewrite string_of_ascii in NE by auto.
    destruct (via_list (fun I nx un => lexNumber nx un) it _ e _ _ _ (fun I1 I2 R nx1 nx2 un1 un2 NX UN => sim_lexNumber R nx1 nx2 un1 un2 NX UN) Y NE) as (it' & Y' & R). eauto.
  Qed.
  Lemma number_rejected it l e : yields (next fn) it l e -> digitc (hd 0 l) \/ hd 0 l = 45 ->
    ~ (exists i f x rest, l = (i ++ f ++ x) ++ rest /\ lex_number i f x /\ number_ends f x rest /\ (rest = [] -> e = EOI)) ->
    exists e' it', returns (lexNumber (next fn) unread) it (zt, Some e') it'.
  Proof.
    intros Y HD N. destruct l as [|c l]; [cbn in HD; unfold digitc in HD; lia|].
    pose proof (number_eq e c l _ (Nat.lt_succ_diag_r _)) as NE. destruct (pnumber e (c :: l)) as [[s r]|] eqn:P.
    - exfalso. destruct (pnumber_some e _ _ _ HD P) as (i & f & x & LN & -> & E2 & EE & NN). apply N. exists i, f, x, r. auto.
    - cbn [res] in NE. destruct NE as (e' & r' & NE).
      destruct (via_list (fun I nx un => lexNumber nx un) it _ e _ _ _ (fun I1 I2 R nx1 nx2 un1 un2 NX UN => sim_lexNumber R nx1 nx2 un1 un2 NX UN) Y NE) as (it' & _ & R). eauto.
  Qed.

  Lemma string_accepted it parts s u rest e : yields (next fn) it (34 :: concat parts ++ u ++ rest) e -> Forall2 lex_spelled parts s -> lex_end u ->
    exists it', returns (lexString (next fn)) it (mkTok tString (string_of_runes s), None) it' /\ yields (next fn) it' rest e.
  Proof.
    intros Y F U.
    assert (H : lexString (list_nx e) (Datatypes.S (length parts)) (34 :: concat parts ++ u ++ rest) = Done ((mkTok tString (string_of_runes s), None), rest)).
    { unfold lexString. cbn [list_nx obind]. rewrite (str_loop_ok e parts s u rest F U); [reflexivity|lia]. }
    destruct (via_list (fun I nx un => lexString nx) it _ e _ _ _ (fun I1 I2 R nx1 nx2 un1 un2 NX UN => sim_lexString R nx1 nx2 NX) Y H) as (it' & Y' & R). eauto.
  Qed.
  Lemma string_rejected it l e : yields (next fn) it (34 :: l) e ->
    ~ (exists parts s u rest, l = concat parts ++ u ++ rest /\ Forall2 lex_spelled parts s /\ lex_end u) ->
    exists e' it', returns (lexString (next fn)) it (zt, Some e') it'.
  Proof.
    intros Y N. destruct (str_loop_total e (Datatypes.S (length l)) [] l ltac:(lia)) as [(parts & s & t & r & F & T & E)|(e' & r & H)].
    - exfalso. apply N. exists parts, s, t, r. auto.
    - assert (H' : lexString (list_nx e) (Datatypes.S (length l)) (34 :: l) = Done ((zt, Some e'), r)) by (unfold lexString; cbn [list_nx obind]; exact H).
      destruct (via_list (fun I nx un => lexString nx) it _ e _ _ _ (fun I1 I2 R nx1 nx2 un1 un2 NX UN => sim_lexString R nx1 nx2 NX) Y H') as (it' & _ & R). eauto.
  Qed.
End L.

(** ** Numbers: lenient and strict *)
Lemma json_number_lex s : json_number s -> exists i f x, s = i ++ f ++ x /\ lex_number i f x.
Proof.
  intros (sg & i & f & x & -> & SG & IP & FP & XP). exists (sg ++ i), f, x. split; [rewrite app_assoc; reflexivity|].
  destruct SG; cbn [app]; [constructor; auto|]. apply ln_neg; auto. destruct IP as [|d ds HD FD]; (split; [discriminate|]); constructor; auto; unfold digitc; lia.
Qed.
Lemma lex_number_json i f x : lex_number i f x -> json_number (i ++ f ++ x) \/ exists d r, i ++ f ++ x = 45 :: 48 :: d :: r /\ digitc d.
Proof.
  destruct 1 as [i f x IP FP XP|ds f x [NE F] FP XP].
  - left. exists [], i, f, x. split; auto. split; [constructor|auto].
  - destruct F as [|d ds D F]; [congruence|]. destruct (Z.eq_dec d 48) as [->|N].
    + destruct F as [|d2 ds D2 F].
      * left. exists [45], [48], f, x. split; auto. split; [constructor|]. split; [constructor|auto].
      * right. exists d2, (ds ++ f ++ x). split; auto.
    + left. exists [45], (d :: ds), f, x. split; auto. split; [constructor|]. split; [|auto]. constructor; auto. unfold digitc in D. lia.
Qed.

(** ** Parse *)
Section Doc.
  Context {S : Type} (rd : reader S).
  Lemma tokens_yield s text e : reads rd s text e -> exists ts e', lexes e text ts e' /\ Forall tok_ok ts /\ yields (tok_next rd) (tokens_of s) ts e'.
  Proof.
    intros R. destruct (lexes_total e text) as (ts & e' & LX & F). exists ts, e'. split; auto. split; auto. unfold tok_next, tokens_of. eapply lexes_yields; eauto.
  Qed.
  Lemma parse_settles s r i' : returns (parse_doc (tok_next rd) unread) (tokens_of s) r i' -> settles (Parse rd s) r.
  Proof. intros [n H]. exists n. intros m L. unfold Parse. rewrite (H m L). reflexivity. Qed.

  Lemma parse_accepts b s text e toks t rest : reads rd s text e -> tokenized e text toks rest -> gval b toks t -> container t -> settles (Parse rd s) (value_of t, None).
  Proof.
    intros R TZ G C. destruct (lexes_total e rest) as (ts & e' & LX & _). pose proof (tokenized_lexes _ _ _ _ _ _ TZ LX) as LX2.
    pose proof (lexes_ok _ _ _ _ LX2) as F. apply Forall_app in F as [F _].
    assert (Y : yields (tok_next rd) (tokens_of s) (toks ++ ts) e') by (unfold tok_next, tokens_of; eapply lexes_yields; eauto).
    destruct (doc_accepts (tok_next rd) unread e' (unread_returns _) b toks t _ ts G C F Y) as (i' & H). eapply parse_settles; eauto.
  Qed.
  Lemma tokenized_prefix e text ts1 ts2 rest : tokenized e text (ts1 ++ ts2) rest -> exists mid, tokenized e text ts1 mid /\ tokenized e mid ts2 rest.
  Proof.
    intros H. remember (ts1 ++ ts2) as ts eqn:E. revert ts1 E. induction H as [rest|c text toks rest W X IH|u t text toks rest T X IH]; intros ts1 E.
    - symmetry in E. apply app_eq_nil in E as [-> ->]. exists rest. split; constructor.
    - destruct (IH ts1 E) as (mid & A & B). exists mid. split; auto. apply tz_ws; auto.
    - destruct ts1 as [|t1 ts1].
      + cbn in E. exists (u ++ text). split; [constructor|]. rewrite <- E. apply tz_tok; auto.
      + cbn in E. inversion E; subst. destruct (IH ts1 eq_refl) as (mid & A & B). exists mid. split; auto. apply tz_tok; auto.
  Qed.
  Lemma parse_total s text e : reads rd s text e ->
    (exists e', settles (Parse rd s) (zv, Some e')) \/
    (exists toks t rest, tokenized e text toks rest /\ gval false toks t /\ container t /\ settles (Parse rd s) (value_of t, None)).
  Proof.
    intros R. destruct (tokens_yield s text e R) as (ts & e' & LX & F & Y).
    destruct (doc_total (tok_next rd) unread e' (unread_returns _) _ ts F Y) as (r & i' & H & G).
    pose proof (parse_settles _ _ _ H) as P. destruct G as [(e2 & ->)|(pre & t & ts' & E & G & C & ->)]; [left; eauto|].
    right. subst ts. destruct (lexes_tokenized _ _ _ _ LX) as (rest & TZ & _). destruct (tokenized_prefix _ _ _ _ _ TZ) as (mid & A & _). exists pre, t, mid. auto.
  Qed.
  Lemma settles_det {A} (f : nat -> outcome A) a b : settles f a -> settles f b -> a = b.
  Proof. intros [n H] [m K]. specialize (H (n + m)%nat ltac:(lia)). rewrite K in H by lia. inversion H; auto. Qed.

  Lemma iterate_agrees s text e : reads rd s text e ->
    exists it vs e', settles (Iterate rd s) it /\ yields (doc_next (tok_next rd) unread) it vs e' /\
      ((e' <> EOI /\ settles (Parse rd s) (zv, Some e')) \/
       (e' = EOI /\ exists v, settles (Parse rd s) (v, None) /\ ((typ_of v = TObject /\ vs = [v]) \/ v = mkV TArray (of4u vs)))).
  Proof.
    intros R. destruct (tokens_yield s text e R) as (ts & e1 & LX & F & Y).
    destruct (iterate_parse (tok_next rd) unread e1 (unread_returns _) _ ts F Y) as (it & vs & e' & i' & IT & YI & D). exists it, vs, e'.
    split; [exact IT|]. split; auto. destruct D as [[N P]|(E & v & P & D)].
    - left. split; auto. eapply parse_settles; eauto.
    - right. split; auto. exists v. split; auto. eapply parse_settles; eauto.
  Qed.
End Doc.

Lemma every_members m : NoDup (map fst m) -> Forall (fun kt : str * tree => every keys_distinct (snd kt)) m -> every keys_distinct (JObj m).
Proof. intros ND F. apply every_obj; auto. intros k t I. rewrite Forall_forall in F. apply (F (k, t) I). Qed.
Lemma grammar_keys b :
  (forall ts t, gval b ts t -> every keys_distinct t) /\
  (forall seen ts m, gmembers b seen ts m -> NoDup (map fst m) /\ (forall k, In k (map fst m) -> ~ In k seen) /\ Forall (fun kt => every keys_distinct (snd kt)) m) /\
  (forall ts l, gelems b ts l -> Forall (every keys_distinct) l).
Proof.
  apply grammar_ind; intros; try (apply every_leaf; exact Logic.I).
  - apply every_members; constructor.
  - destruct H as (A & _ & B). apply every_members; auto.
  - apply every_arr; [exact Logic.I|intros ? []].
  - apply every_arr; [exact Logic.I|]. rewrite Forall_forall in H. exact H.
  - split; [repeat constructor; intros []|]. split; [intros k0 [<-|[]]; auto|]. constructor; auto.
  - split; [repeat constructor; intros []|]. split; [intros k0 [<-|[]]; auto|]. constructor; auto.
  - destruct H0 as (A & B & C). split; [|split].
    + cbn. constructor; auto. intros I. apply (B k I). left; auto.
    + intros k0 [<-|I]; auto. intros J. apply (B k0 I). right; auto.
    + constructor; auto.
  - constructor; auto.
  - constructor; auto.
Qed.

Lemma round_trip t : writable t -> rcontainer t ->
  exists bs, write_json (write (rune_writer buffer_writer)) (value_of (tree_of t)) [] = Done (None, bs) /\
    settles (Parse string_reader bs) (value_of (tree_of t), None).
Proof.
  intros WR C. destruct (C53_rune_round_trip (render t) (render_scalar t WR)) as (bs & WB & Y). exists bs. split.
  - rewrite write_render by (apply writable_encodable; auto). rewrite WB. reflexivity.
  - destruct (render_strict t WR C) as (toks & G & LX).
    eapply parse_accepts; [exact Y|apply lexed_tokenized; exact LX|exact G|destruct t; cbn in *; auto].
Qed.
