(** What Parse leaves in the reader. *)
From Verif Require Import Base GoMap Iter IterSpec IterProofs Readers ReaderSpec ReaderProofs Stream Union Rest Json JsonLex JsonParse JsonSim JsonSpec JsonLexProofs JsonTokProofs JsonParseProofs JsonDocProofs JsonApiProofs JsonParseSim JsonFaultSpec JsonFaultProofs2 JsonRead JsonReadProofs.
From Coq Require Import ZifyBool.
Open Scope go_scope.
Open Scope Z_scope.

(** ** The last character of a token *)
Lemma last_app {A} (a b : list A) d : b <> [] -> last (a ++ b) d = last b d.
Proof.
  intros N. destruct (exists_last N) as (b' & x & ->). rewrite app_assoc, !last_last. reflexivity.
Qed.
Lemma last_forall {A} (Q : A -> Prop) l d : l <> [] -> Forall Q l -> Q (last l d).
Proof. intros N F. destruct (exists_last N) as (l' & x & ->). rewrite last_last. apply Forall_app in F as [_ F]. inversion F; auto. Qed.
Lemma found_last e u t x : found e u t x -> ~ wsc (last u 0).
Proof.
  intros H. destruct H as [u t rest I|u t rest I _|i f x rest L _ _|parts s u rest _ L].
  - cbn in I. repeat (destruct I as [I|I]; [injection I as <- <-; unfold wsc; cbn; lia|]). contradiction.
  - cbn in I. repeat (destruct I as [I|I]; [injection I as <- <-; unfold wsc; cbn; lia|]). contradiction.
  - assert (DG : forall ds, Forall digitc ds -> Forall (fun c => ~ wsc c) ds) by (intros ds F; eapply Forall_impl; [|exact F]; intros c; unfold digitc, wsc; lia).
    assert (FR : forall f, frac_part f -> Forall (fun c => ~ wsc c) f) by (intros f0 [|ds [_ F]]; constructor; auto; unfold wsc; lia).
    assert (EX : forall x, exp_part x -> Forall (fun c => ~ wsc c) x).
    { intros x0 [|c sg ds C SG [_ F]]; constructor; [unfold wsc; lia|]. apply Forall_app. split; auto. destruct SG as [->|[->| ->]]; repeat constructor; unfold wsc; lia. }
    apply (last_forall (fun c => ~ wsc c)).
    + destruct L as [i f x IP _ _|ds f x D _ _]; [destruct IP|]; discriminate.
    + destruct L as [i f x IP FP XP|ds f x [_ D] FP XP].
      * apply Forall_app. split; [|apply Forall_app; auto]. destruct IP as [|d ds D F]; constructor; auto; unfold wsc; lia.
      * constructor; [unfold wsc; lia|]. apply Forall_app. split; auto. apply Forall_app; auto.
  - rewrite app_assoc. destruct L as [|u U].
    + rewrite last_last. unfold wsc; lia.
    + inversion U as [c1 c2 c3 c4 d1 d2 d3 d4 H1 H2 H3 H4 E1 E2]. subst u. rewrite last_app by discriminate. cbn [last].
      unfold wsc. clear - H4. inversion H4; lia.
Qed.

Definition exact_at (W x : list Z) : Prop := exists y, W = y ++ x /\ (y = [] \/ ~ wsc (last y 0)).
Lemma exact_unique W x1 x2 w : exact_at W x1 -> exact_at W x2 -> Forall wsc w -> x1 = w ++ x2 -> x1 = x2.
Proof.
  intros (y1 & E1 & L1) (y2 & E2 & L2) F ->. destruct w as [|c w]; [reflexivity|]. exfalso.
  rewrite E1, app_assoc in E2. apply app_inv_tail in E2. subst y2. rewrite last_app in L2 by discriminate.
  destruct L2 as [L2|L2]; [destruct y1; discriminate|]. apply L2. apply (last_forall wsc); [discriminate|exact F].
Qed.

(** ** Real iterators against the plain text *)
Lemma yields_same {S T} `{Zero T} (f : stepfn S T) s1 s2 l e : (forall m, f m s1 = f m s2) -> yields f s1 l e -> yields f s2 l e.
Proof.
  intros E (s' & EM & ST). destruct EM as [s|s v s1' l s2' [n R] EM].
  - exists s2. split; [constructor|]. inversion ST as [? ? s' [n R] ST2]; subst. econstructor; [|exact ST2]. exists n. intros m L. rewrite <- E. apply R; auto.
  - exists s2'. split; [|exact ST]. econstructor; [|exact EM]. exists n. intros m L. rewrite <- E. apply R; auto.
Qed.

Section Real.
  Context {S0 : Type} (fn : stepfn S0 Z) (P : S0 -> Prop).
  Hypothesis FP : forall m s v s', fn m s = Done ((v, None), s') -> P s -> P s'.
  Variables (e : err) (W : list Z).
  Definition Rel (i : impl (impl S0 Z) token) (s : pst) : Prop :=
    buffer i = rev (pb s) /\
    match pd s with
    | None => fn_live i = true /\ yields (next fn) (src i) (px s) e /\ (l01 P (src i) \/ dead (src i)) /\ (pc s = true -> live P 0 (src i)) /\
              exact_at W (px s) /\ exists read, tokenized e W read (px s)
    | Some e' => fn_live i = false /\ last_err i = Some e'
    end.
  Lemma rel_un i s v : Rel i s -> Rel (unread i v) (pun s v).
  Proof. intros (A & B). split; [cbn; rewrite A; reflexivity|exact B]. Qed.
  Lemma rel_sim : sim Rel (next (lexer_gen fn)) (pnx e).
  Proof.
    intros k i s a s' (A & B) H. unfold pnx in H. destruct (pb s) as [|t b] eqn:PB.
    - destruct (pd s) as [e'|] eqn:PD.
      + destruct B as (B1 & B2). injection H as <- <-. exists i. split; [split; [rewrite PB; exact A|rewrite PD; auto]|]. exists 0%nat. intros m _. unfold next. rewrite A. cbn. rewrite B1, B2. reflexivity.
      + destruct B as (B1 & B2 & B3 & B4 & B5 & (read & B6)). destruct (lex (list_nx e) list_un k (px s)) as [[r x']| |] eqn:E; cbn [obind] in H; try discriminate.
        destruct (sim_lex (fun j l => yields (next fn) j l e) (next fn) (list_nx e) unread list_un (yields_sim (next fn) e) (fun s1 s2 v => yields_un (next fn) unread e (unread_returns fn) s1 s2 v) k (src i) (px s) r x' B2 E) as (j' & Y & n & O).
        assert (NX : forall m, (n <= m)%nat -> next (lexer_gen fn) m i = match r with (val, None) => Done ((val, None), mkImpl true j' (buffer i) (last_err i)) | (_, Some e0) => Done ((zv, Some e0), mkImpl false j' (buffer i) (Some e0)) end).
        { intros m L. unfold next at 1. rewrite A. cbn [rev length Nat.sub nth_error]. rewrite B1. unfold lexer_gen. rewrite O by auto. destruct r as [v [x|]]; reflexivity. }
        destruct r as [t [x|]]; injection H as <- <-.
        * eexists. split; [|exists n; exact NX]. split; [exact A|]. cbn. auto.
        * eexists. split; [|exists n; exact NX]. split; [exact A|]. cbn [pd pc px fn_live src]. split; [reflexivity|]. split; [exact Y|].
          pose proof (st_lex fn P FP n (src i) t j' B3 (O n (le_n n))) as ST.
          split; [destruct ST as [[_ ST]|[_ [ST|ST]]]; [left; left; auto|left; right; auto|right; auto]|].
          split; [intros WB; destruct ST as [[_ ST]|[WF _]]; [exact ST|congruence]|].
          destruct (lex_found e _ _ _ _ E) as (w & u & EX & F & FD). split.
          -- destruct B5 as (y & EW & _). exists (y ++ w ++ u). split; [rewrite EW, EX, !app_assoc; reflexivity|]. right.
             rewrite app_assoc, last_app by (eapply found_nonempty; eauto). eapply found_last; eauto.
          -- exists (read ++ [t]). eapply tokenized_app; [exact B6|]. rewrite EX. apply tokenized_wss; auto. apply tz_tok; auto. constructor.
    - injection H as <- <-. exists (mkImpl (fn_live i) (src i) (rev b) (last_err i)). split; [split; [reflexivity|exact B]|].
      exists 0%nat. intros m _. unfold next. rewrite A. cbn [rev]. rewrite nth_error_snoc, firstn_snoc. reflexivity.
  Qed.
End Real.

Lemma pnx_yields e : forall x ts e', lexes e x ts e' -> forall c, yields (pnx e) (mkP None c [] x) ts e'.
Proof.
  induction 1 as [l f v e' l' H|l f t l' ts e' H LX IH]; intros c; destruct (lex_mono _ _ _ _ _ H) as (n & Hn).
  - exists (mkP None c [] l). split; [constructor|]. econstructor; [exists n; intros m L; unfold pnx; cbn; rewrite Hn by auto; reflexivity|].
    cofix CH. econstructor; [exists 0%nat; intros m _; reflexivity|exact CH].
  - eapply yields_cons; [exists n; intros m L; unfold pnx; cbn; rewrite Hn by auto; reflexivity|apply IH].
Qed.
Lemma pun_returns e s v : returns (pnx e) (pun s v) (v, None) s.
Proof. exists 0%nat. intros m _. unfold pnx, pun. cbn. destruct s; reflexivity. Qed.

Section Doc.
  Context {S0 : Type} (fn : stepfn S0 Z) (P : S0 -> Prop).
  Hypothesis FP : forall m s v s', fn m s = Done ((v, None), s') -> P s -> P s'.
  Lemma doc_leaves e W toks t rest j b : tokenized e W toks rest -> exact_at W rest -> gval b toks t -> container t ->
    yields (next fn) j W e -> live P 0 j ->
    exists i', returns (parse_doc (next (lexer_gen fn)) unread) (lexer j) (value_of t, None) i' /\
      live P 0 (src i') /\ yields (next fn) (src i') rest e.
  Proof.
    intros TZ EX G C Y L.
    destruct (lexes_total e rest) as (ts & e' & LX & _). pose proof (tokenized_lexes _ _ _ _ _ _ TZ LX) as LX2.
    pose proof (lexes_ok _ _ _ _ LX2) as F. pose proof F as F0. apply Forall_app in F as [F _].
    set (s0 := mkP None true [] W). pose proof (pnx_yields e _ _ _ LX2 true) as YP. fold s0 in YP.
    (* the plain text *)
    assert (D : exists s', returns (parse_doc (pnx e) pun) s0 (value_of t, None) s' /\ yields (pnx e) s' ts e').
    { destruct (container_open _ _ _ G C) as (o & r & E & O). pose proof YP as H'. rewrite E in H'. cbn [app] in H'.
      destruct (doc2_open (pnx e) pun e' (pun_returns e) _ _ _ H' O) as (i1 & Y1 & K).
      destruct (accepts (pnx e) pun e' (pun_returns e) b) as [A _]. destruct (A toks t G F i1 ts) as (i2 & R & Y2); [rewrite E; exact Y1|].
      exists i2. split; auto. apply K; auto. discriminate. }
    destruct D as (s' & [n R] & YS). pose proof (R n (le_n n)) as RN.
    destruct (w_doc e n s0 (value_of t) s' ltac:(split; reflexivity) RN) as ((PD & PB) & PC).
    destruct (sim_doc (Rel fn P e W) (next (lexer_gen fn)) (pnx e) unread pun (rel_sim fn P FP e W) (rel_un fn P e W) n (lexer j) s0 (value_of t, None) s') as (i' & (RB & RL) & O).
    - split; [reflexivity|]. cbn. split; auto. split; auto. split; [left; left; auto|]. split; auto. split; [exists []; auto|]. exists []. constructor.
    - exact RN.
    - rewrite PD in RL. destruct RL as (_ & Y2 & _ & LV & EX2 & (read & TZ2)).
      exists i'. split; [exact O|]. split; [apply LV; exact PC|].
      destruct (lexes_total e (px s')) as (ts2 & e2 & LX3 & _). pose proof (pnx_yields e _ _ _ LX3 (pc s')) as YP2.
      replace (mkP None (pc s') [] (px s')) with s' in YP2 by (destruct s'; cbn in *; congruence).
      destruct (yields_det _ _ _ _ _ _ YS YP2) as [-> ->].
      pose proof (tokenized_lexes _ _ _ _ _ _ TZ2 LX3) as LX4. destruct (lexes_det _ _ _ _ _ _ LX2 LX4) as [ET _]. apply app_inv_tail in ET. subst read.
      assert (px s' = rest) as EE; [|rewrite <- EE; exact Y2].
      destruct (tokenized_rest _ _ _ _ _ TZ TZ2) as (w & FW & [X|X]); [symmetry|]; eapply exact_unique; eauto.
  Qed.
End Doc.
