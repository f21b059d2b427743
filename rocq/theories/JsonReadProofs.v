(** How far the JSON lexer and parser read their source. *)
From Verif Require Import Base GoMap Iter IterSpec IterProofs Readers ReaderSpec Stream Union Rest Json JsonLex JsonParse JsonSim JsonSpec JsonLexProofs JsonTokProofs JsonParseProofs JsonDocProofs JsonParseSim.
From Coq Require Import ZifyBool.
Open Scope go_scope.
Open Scope Z_scope.

(** ** The lexer puts back at most one rune, and none after a token that is not a number or a word *)
Definition wholeb (t : token) : bool := match ttyp t with tNumber | tBoolean | tNull => false | _ => true end.

Section LexState.
  Context {S0 : Type} (fn : stepfn S0 Z) (P : S0 -> Prop).
  Hypothesis FP : forall m s v s', fn m s = Done ((v, None), s') -> P s -> P s'.
  Definition live (k : nat) (j : impl S0 Z) : Prop := fn_live j = true /\ length (buffer j) = k /\ P (src j) /\ last_err j = None.
  Definition dead (j : impl S0 Z) : Prop := fn_live j = false /\ buffer j = [] /\ last_err j <> None.
  Definition l01 j := live 0 j \/ live 1 j.
  Local Notation nx := (next fn).

  Lemma next_ok m j v j' : l01 j -> nx m j = Done ((v, None), j') -> live 0 j'.
  Proof.
    intros L H. unfold next in H. destruct L as [(A & B & C & D)|(A & B & C & D)].
    - destruct (buffer j) as [|? ?] eqn:EB; [|discriminate]. cbn in H. rewrite A in H. destruct (fn m (src j)) as [[[w [x|]] s']| |] eqn:E; cbn in H; try discriminate.
      injection H as -> <-. split; [reflexivity|]. split; [reflexivity|]. cbn. split; auto. eapply FP; eauto.
    - destruct (buffer j) as [|b [|? ?]] eqn:EB; try discriminate. cbn in H. injection H as -> <-. split; [exact A|]. split; [reflexivity|split; [exact C|exact D]].
  Qed.
  Lemma next_err m j v x j' : l01 j -> nx m j = Done ((v, Some x), j') -> dead j'.
  Proof.
    intros L H. unfold next in H. destruct L as [(A & B & C & D)|(A & B & C & D)].
    - destruct (buffer j) as [|? ?] eqn:EB; [|discriminate]. cbn in H. rewrite A in H. destruct (fn m (src j)) as [[[w [y|]] s']| |] eqn:E; cbn in H; try discriminate.
      injection H as <- -> <-. split; [reflexivity|]. split; [reflexivity|]. discriminate.
    - destruct (buffer j) as [|b [|? ?]] eqn:EB; try discriminate.
  Qed.
  Lemma next_dead m j v j' : dead j -> nx m j = Done ((v, None), j') -> False.
  Proof. intros (A & B & C) H. unfold next in H. rewrite B in H. cbn in H. rewrite A in H. injection H as _ E _. congruence. Qed.
  Lemma unread_live k j v : live k j -> live (S k) (unread j v).
  Proof. intros (A & B & C & D). unfold unread. split; [exact A|]. split; [cbn; rewrite app_length; cbn; lia|split; [exact C|exact D]]. Qed.

  Ltac step :=
    match goal with
    | H : obind (nx ?m ?j) _ = Done _ |- _ => let E := fresh "E" in destruct (nx m j) as [[[? [?|]] ?]| |] eqn:E; cbn [obind] in H; try discriminate H
    | H : Done _ = Done _ |- _ => injection H; clear H; intros; subst
    | H : (if ?b then _ else _) = Done _ |- _ => destruct b eqn:?
    | H : l01 ?j, E : nx _ ?j = Done ((_, None), ?j') |- _ => lazymatch goal with K : live 0 j' |- _ => fail | _ => pose proof (next_ok _ _ _ _ H E) end
    | H : live 0 ?j, E : nx _ ?j = Done ((_, None), ?j') |- _ => lazymatch goal with K : live 0 j' |- _ => fail | _ => pose proof (next_ok _ _ _ _ (or_introl H) E) end
    | H : l01 ?j, E : nx _ ?j = Done ((_, Some _), ?j') |- _ => lazymatch goal with K : dead j' |- _ => fail | _ => pose proof (next_err _ _ _ _ _ H E) end
    | H : live 0 ?j, E : nx _ ?j = Done ((_, Some _), ?j') |- _ => lazymatch goal with K : dead j' |- _ => fail | _ => pose proof (next_err _ _ _ _ _ (or_introl H) E) end
    end.

  Lemma st_hex n : forall h m j v j', live 0 j -> read_hex nx n h m j = Done ((v, None), j') -> live 0 j'.
  Proof. induction n as [|n IH]; intros h m j v j' L H; cbn [read_hex] in H; [injection H as _ <-; exact L|]. repeat step; try discriminate; eapply IH; eauto. Qed.
  Lemma st_unicode m j v j' : live 0 j -> lex_unicode nx m j = Done ((v, None), j') -> live 0 j'.
  Proof.
    intros L H. unfold lex_unicode in H.
    destruct (read_hex nx 4 0 m j) as [[[h [x|]] j1]| |] eqn:E1; cbn [obind] in H; try discriminate. pose proof (st_hex _ _ _ _ _ _ L E1) as L1.
    repeat step; auto; try discriminate.
    match goal with H : obind (read_hex nx 4 0 m ?i) _ = _ |- _ => destruct (read_hex nx 4 0 m i) as [[[h2 [x|]] j4]| |] eqn:E2; cbn [obind] in H; try discriminate; pose proof (st_hex _ _ _ _ _ _ ltac:(eassumption) E2) as L4 end.
    repeat step; auto; try discriminate.
  Qed.
  Lemma st_escape c m j v j' : live 0 j -> lex_escape nx c m j = Done ((v, None), j') -> live 0 j'.
  Proof. intros L H. unfold lex_escape in H. repeat step; auto; try discriminate. eapply st_unicode; eauto. Qed.
  Lemma st_str : forall m str j t j', live 0 j -> str_loop nx m str j = Done ((t, None), j') -> live 0 j'.
  Proof.
    induction m as [|m IH]; intros str j t j' L H; cbn [str_loop] in H; [discriminate|]. repeat step; auto; try discriminate; try (eapply IH; eauto; fail).
    match goal with H : obind (lex_escape nx ?c m ?i) _ = _ |- _ => destruct (lex_escape nx c m i) as [[[h2 [x|]] j4]| |] eqn:E2; cbn [obind] in H; try discriminate; pose proof (st_escape _ _ _ _ _ ltac:(eassumption) E2) as L4 end.
    repeat step; auto; try discriminate; eapply IH; eauto.
  Qed.
  Definition half (t : token) (j : impl S0 Z) : Prop := wholeb t = false /\ (live 1 j \/ dead j).
  Lemma st_exp_loop : forall m str hd j t j', l01 j -> num_exp_loop nx unread m str hd j = Done ((t, None), j') -> half t j'.
  Proof.
    induction m as [|m IH]; intros str hd j t j' L H; cbn [num_exp_loop] in H; [discriminate|]. unfold num_die, num_tok in H. repeat step; auto; try discriminate.
    - destruct e; repeat step; try discriminate. split; auto.
    - eapply IH; [|eassumption]; left; auto.
    - split; auto. left. apply unread_live; auto.
  Qed.
  Lemma st_exp m str j t j' : l01 j -> num_exp nx unread m str j = Done ((t, None), j') -> half t j'.
  Proof.
    intros L H. unfold num_exp in H. repeat step; try (unfold num_die in H; discriminate).
    - eapply st_exp_loop; [|eassumption]; left; auto.
    - eapply st_exp_loop; [|eassumption]; right; apply unread_live; auto.
  Qed.
  Lemma st_frac_loop : forall m str hd j t j', l01 j -> num_frac_loop nx unread m str hd j = Done ((t, None), j') -> half t j'.
  Proof.
    induction m as [|m IH]; intros str hd j t j' L H; cbn [num_frac_loop] in H; [discriminate|]. unfold num_die, num_tok in H. repeat step; auto; try discriminate.
    - destruct e; repeat step; try discriminate. split; auto.
    - eapply IH; [|eassumption]; left; auto.
    - eapply st_exp; [|eassumption]; left; auto.
    - split; auto. left. apply unread_live; auto.
  Qed.
  Lemma st_int_loop : forall m str hd lz j t j', l01 j -> num_int_loop nx unread m str hd lz j = Done ((t, None), j') -> half t j'.
  Proof.
    induction m as [|m IH]; intros str hd lz j t j' L H; cbn [num_int_loop] in H; [discriminate|]. unfold num_die, num_tok in H. repeat step; auto; try discriminate.
    - destruct e; repeat step; try discriminate. split; auto.
    - eapply IH; [|eassumption]; left; auto.
    - eapply st_frac_loop; [|eassumption]; left; auto.
    - eapply st_exp; [|eassumption]; left; auto.
    - split; auto. left. apply unread_live; auto.
  Qed.
  Lemma st_word : forall m str j t j', l01 j -> word_loop nx unread m str j = Done ((t, None), j') -> half t j'.
  Proof.
    assert (W : forall str t, word_token str = (t, None) -> wholeb t = false).
    { intros str t. unfold word_token. repeat destruct (list_eq_dec _ _ _); intros E; inversion E; reflexivity. }
    induction m as [|m IH]; intros str j t j' L H; cbn [word_loop] in H; [discriminate|]. repeat step.
    - destruct e; try discriminate. injection H as E1 E2. subst. split; [eapply W; eauto|auto].
    - eapply IH; [|eassumption]; left; auto.
    - split; [eapply W; eauto|]. left. apply unread_live; auto.
  Qed.
  Lemma st_ws : forall m j v j', l01 j -> ws_loop nx m j = Done ((v, None), j') -> live 0 j'.
  Proof. induction m as [|m IH]; intros j v j' L H; cbn [ws_loop] in H; [discriminate|]. repeat step; auto; try discriminate. eapply IH; [|eassumption]; left; auto. Qed.
  Lemma st_lex m j t j' : l01 j \/ dead j -> lex nx unread m j = Done ((t, None), j') -> (wholeb t = true /\ live 0 j') \/ half t j'.
  Proof.
    intros L H. unfold lex in H. destruct L as [L|L]; [|exfalso; destruct (nx m j) as [[[? [?|]] ?]| |] eqn:E; cbn [obind] in H; try discriminate; eapply next_dead; eauto].
    repeat step; try discriminate.
    match goal with H : obind (ws_loop nx m ?i) _ = _ |- _ => destruct (ws_loop nx m i) as [[[h2 [x|]] j4]| |] eqn:E2; cbn [obind] in H; try discriminate; pose proof (st_ws _ _ _ _ (or_intror (unread_live 0 _ _ ltac:(eassumption))) E2) as L4 end.
    repeat (destruct (_ =? _) eqn:? in H; [injection H as <- <-; left; split; [reflexivity|exact L4]|]).
    assert (U : live 1 (unread j4 h2)) by (apply unread_live; exact L4).
    destruct (h2 =? 34).
    - left. unfold lexString in H. destruct (nx m (unread j4 h2)) as [[[c oe] j5]| |] eqn:E5; cbn [obind] in H; try discriminate.
      assert (L5 : live 0 j5). { destruct oe; [|exact (next_ok _ _ _ _ (or_intror U) E5)]. exfalso. unfold next, unread in E5. cbn [buffer] in E5. destruct L4 as (_ & B & _). destruct (buffer j4); [|discriminate]. cbn in E5. discriminate. }
      pose proof (st_str _ _ _ _ _ L5 H) as L6. split; auto.
      revert H. clear. generalize (@nil Z). revert j5. induction m as [|m IH]; intros j5 str H; cbn [str_loop] in H; [discriminate|].
      repeat step; auto; try discriminate; try (eapply IH; eauto; fail).
      match goal with H : obind (lex_escape nx ?c m ?i) _ = _ |- _ => destruct (lex_escape nx c m i) as [[[h3 [x|]] j8]| |] eqn:E8; cbn [obind] in H; try discriminate end.
      repeat step; auto; try discriminate; eapply IH; eauto.
    - right. destruct ((h2 =? 45) || _).
      + unfold lexNumber in H. destruct (nx m (unread j4 h2)) as [[[c oe] j5]| |] eqn:E5; cbn [obind fst] in H; try discriminate.
        assert (L5 : live 0 j5). { destruct oe; [|exact (next_ok _ _ _ _ (or_intror U) E5)]. exfalso. unfold next, unread in E5. cbn [buffer] in E5. destruct L4 as (_ & B & _). destruct (buffer j4); [|discriminate]. cbn in E5. discriminate. }
        eapply st_int_loop; [|eassumption]; left; auto.
      + destruct (_ || _); [|discriminate]. unfold lexBooleanNull in H. eapply st_word; [|eassumption]; right; auto.
  Qed.
End LexState.

(** ** The parser on a plain text *)
(** state: the error the tokens ended with, whether the last token was whole, tokens put back, the text to come *)
Record pst := mkP { pd : option err; pc : bool; pb : list token; px : list Z }.
Section Text.
  Variable e : err.
  Definition pnx : stepfn pst token := fun fuel s =>
    match pb s with
    | t :: b => Done ((t, None), mkP (pd s) (pc s) b (px s))
    | [] =>
        match pd s with
        | Some e' => Done ((zv, Some e'), s)
        | None =>
            let! (r, x') := lex (list_nx e) list_un fuel (px s) in
            match r with
            | (t, None) => Done ((t, None), mkP None (wholeb t) [] x')
            | (_, Some e') => Done ((zv, Some e'), mkP (Some e') false [] x')
            end
        end
    end.
  Definition pun (s : pst) (t : token) : pst := mkP (pd s) (pc s) (t :: pb s) (px s).

  (** *** a success leaves nothing put back, and the last token read was the closing one *)
  Definition ready s := pd s = None /\ pb s = [].
  Definition held (t : token) s := pd s = None /\ pb s = [t].
  Definition clean s := ready s /\ pc s = true.
  Definition closing (t : token) := ttyp t = tCBrace \/ ttyp t = tCBracket.

  Lemma pnx_ready m s t s' : ready s -> pnx m s = Done ((t, None), s') -> ready s' /\ (closing t -> clean s').
  Proof.
    intros (A & B) H. unfold pnx in H. rewrite A, B in H. destruct (lex _ _ m (px s)) as [[[v [x|]] x']| |]; cbn in H; try discriminate. injection H as -> <-.
    split; [split; reflexivity|]. intros C. split; [split; reflexivity|]. cbn. unfold wholeb. destruct C as [-> | ->]; reflexivity.
  Qed.
  Lemma pnx_held m t s r s' : held t s -> pnx m s = Done (r, s') -> r = (t, None) /\ ready s' /\ pun s' t = s.
  Proof. intros (A & B) H. unfold pnx in H. rewrite B in H. injection H as <- <-. split; auto. split; [split; auto|]. unfold pun. cbn. rewrite <- B. destruct s; reflexivity. Qed.
  Lemma pun_ready s t : ready s -> held t (pun s t).
  Proof. intros (A & B). unfold pun, held. cbn. rewrite B. auto. Qed.

  Definition ends_well (r : ret value) (s' : pst) : Prop := match snd r with None => ready s' | Some e' => e' <> EOI end.
  Definition ends_clean {A} (r : ret A) (s' : pst) : Prop := match snd r with None => clean s' | Some e' => e' <> EOI end.
  Lemma clean_well r s : ends_clean r s -> ends_well r s.
  Proof. unfold ends_clean, ends_well. destruct (snd r); auto. intros (? & _); auto. Qed.
  Lemma eoi_or_ne mine e' : mine <> EOI -> eoi_or mine e' <> EOI.
  Proof. destruct e'; cbn; congruence. Qed.

  Section PV.
    Variable pv : stepfn pst value.
    Hypothesis PV : forall k t s r s', held t s -> pv k s = Done (r, s') -> ends_well r s'.
    Ltac pstep :=
      match goal with
      | H : obind (pnx ?m ?j) _ = Done _ |- _ => let E := fresh "E" in destruct (pnx m j) as [[[? [?|]] ?]| |] eqn:E; cbn [obind] in H; try discriminate H
      | H : obind (pv ?m ?j) _ = Done _ |- _ => let E := fresh "E" in destruct (pv m j) as [[[? [?|]] ?]| |] eqn:E; cbn [obind] in H; try discriminate H
      | H : Done _ = Done _ |- _ => injection H; clear H; intros; subst
      | H : (if ?b then _ else _) = Done _ |- _ => destruct b eqn:?
      | H : match ttyp ?t with _ => _ end = Done _ |- _ => destruct (ttyp t) eqn:?
      | H : match mget ?a ?b ?c with _ => _ end = Done _ |- _ => destruct (mget a b c) eqn:?
      | H : (let v := _ in _) = Done _ |- _ => cbv zeta in H
      | H : ready ?j, E : pnx _ ?j = Done ((_, None), ?j') |- _ => lazymatch goal with K : ready j' |- _ => fail | _ => destruct (pnx_ready _ _ _ _ H E) end
      | H : ready ?j, E : pv _ (pun ?j ?t) = Done (?r, ?j') |- _ => lazymatch goal with K : ends_well r j' |- _ => fail | _ => pose proof (PV _ _ _ _ _ (pun_ready j t H) E) end
      | H : ends_well (_, None) ?j |- _ => lazymatch goal with K : ready j |- _ => fail | _ => assert (ready j) by exact H end
      | H : ends_well (_, Some ?x) _ |- _ => lazymatch goal with K : x <> EOI |- _ => fail | _ => assert (x <> EOI) by exact H end
      end.
    Ltac fin := try (unfold ends_clean; cbn; first [assumption | discriminate | apply eoi_or_ne; discriminate | match goal with K : closing _ -> clean _ |- _ => apply K; unfold closing; auto end]; fail).
    Lemma w_obj : forall k obj s r s', ready s -> obj_loop pnx pun pv k obj s = Done (r, s') -> ends_clean r s'.
    Proof.
      induction k as [|k IH]; intros obj s r s' R H; cbn [obj_loop] in H; [discriminate|]. unfold mapToValue in H. repeat pstep; fin. eapply IH; [|eassumption]; auto.
    Qed.
    Lemma w_object k t s r s' : held t s -> parse_object pnx pun pv k s = Done (r, s') -> ends_clean r s'.
    Proof.
      intros HD H. unfold parse_object in H. destruct (pnx k s) as [[r0 s1]| |] eqn:E; cbn [obind] in H; try discriminate.
      destruct (pnx_held _ _ _ _ _ HD E) as (_ & R & _). eapply w_obj; eauto.
    Qed.
    Definition astate (st : bool * pst) : Prop := if fst st then exists t, held t (snd st) else ready (snd st).
    Lemma not_eoi x s : x <> EOI -> match x with EOI => clean s | _ => True end.
    Proof. destruct x; auto; congruence. Qed.
    Lemma w_array k st r st' : astate st -> array_gen pnx pun pv k st = Done (r, st') ->
      match snd r with None => fst st' = false /\ ready (snd st') | Some EOI => clean (snd st') | Some _ => True end.
    Proof.
      intros A H. destruct st as [[] s]; unfold astate in A; cbn in A; unfold array_gen in H; cbv beta iota in H.
      - destruct A as (t & HD). destruct (pnx k s) as [[r0 s1]| |] eqn:E; cbn [obind] in H; try discriminate. destruct (pnx_held _ _ _ _ _ HD E) as (_ & R & _).
        repeat pstep; cbn [snd fst]; auto; try (apply not_eoi; first [assumption|apply eoi_or_ne; discriminate|discriminate]);
          try match goal with K : closing _ -> clean _ |- _ => apply K; unfold closing; auto end.
      - repeat pstep; cbn [snd fst]; auto; try (apply not_eoi; first [assumption|apply eoi_or_ne; discriminate|discriminate]);
          try match goal with K : closing _ -> clean _ |- _ => apply K; unfold closing; auto end.
    Qed.
    Definition astate3 (it : impl (bool * pst) value) : Prop := fn_live it = true /\ buffer it = [] /\ astate (src it).
    Lemma w_next k it r it' : astate3 it -> next (array_gen pnx pun pv) k it = Done (r, it') ->
      match snd r with None => astate3 it' | Some EOI => clean (snd (src it')) | Some _ => True end.
    Proof.
      intros (A & B & C) H. unfold next in H. rewrite A, B in H. cbn in H. destruct (array_gen pnx pun pv k (src it)) as [[[v [x|]] st']| |] eqn:E; cbn in H; try discriminate; injection H as <- <-;
        pose proof (w_array _ _ _ _ C E) as W; cbn in W |- *; auto.
      destruct W as (W1 & W2). split; auto. split; auto. unfold astate. cbn. rewrite W1. exact W2.
    Qed.
    Lemma w_pull : forall loop k acc it r it', astate3 it ->
      pull_loop (next (array_gen pnx pun pv)) (fun slc val => Done (inl (slc ++ [val]))) (fun slc e0 => match e0 with EOI => (slc, None) | _ => ([], Some e0) end) loop k acc it = Done (r, it') ->
      ends_clean r (snd (src it')).
    Proof.
      induction loop as [|loop IH]; intros k acc it r it' A H; cbn [pull_loop] in H; [discriminate|].
      destruct (next (array_gen pnx pun pv) k it) as [[[v [x|]] it1]| |] eqn:E; cbn [obind] in H; try discriminate; pose proof (w_next _ _ _ _ A E) as W; cbn in W.
      - injection H as <- <-. unfold ends_clean. destruct x; cbn; auto; discriminate.
      - eapply IH; eauto.
    Qed.
    Lemma w_collect k t s r s' : held t s -> collect_array pnx pun pv k s = Done (r, s') -> ends_clean r s'.
    Proof.
      intros HD H. unfold collect_array in H. unfold next at 1 in H. cbn [ofIter buffer length nth_error Nat.sub fn_live src] in H. unfold st_to_slice in H. cbv beta iota in H.
      destruct (pull_loop _ _ _ k k [] (parse_array s)) as [[[v oe] t2]| |] eqn:E; cbn [obind] in H; try discriminate.
      pose proof (w_pull k k [] (parse_array s) _ _ ltac:(unfold astate3, astate; cbn; eauto) E) as W.
      destruct oe; cbn in H; injection H as <- <-; exact W.
    Qed.
  End PV.

  Lemma w_value : forall d k t s r s', held t s -> parse_value pnx pun d k s = Done (r, s') -> ends_well r s' /\ (ttyp t = tOBrace \/ ttyp t = tOBracket -> ends_clean r s').
  Proof.
    induction d as [|d IH]; intros k t s r s' HD H; cbn [parse_value] in H; [discriminate|].
    assert (PV : forall k t s r s', held t s -> parse_value pnx pun d k s = Done (r, s') -> ends_well r s') by (intros; eapply IH; eauto).
    destruct (pnx k s) as [[r0 s1]| |] eqn:E; cbn [obind] in H; try discriminate. destruct (pnx_held _ _ _ _ _ HD E) as (-> & R & U). cbn [fst] in H. rewrite U in H.
    destruct (ttyp t) eqn:TT; try (split; [|intros [X|X]; discriminate X]).
    all: try (injection H as <- <-; exact R).
    - destruct (collect_array _ _ _ k s) as [[[v [x|]] s2]| |] eqn:E2; cbn [obind] in H; try discriminate; pose proof (w_collect _ PV _ _ _ _ _ HD E2) as W; injection H as <- <-;
        (assert (ends_clean (A := value) (zv, None) s2 \/ True) by auto); (split; [apply clean_well; exact W|intros _; exact W]).
    - pose proof (w_object _ PV _ _ _ _ _ HD H) as W. split; [apply clean_well; exact W|auto].
    - destruct (numberToValue _) as [v [x|]]; [discriminate|]. injection H as <- <-. exact R.
  Qed.
  Lemma w_doc k s v s' : ready s -> parse_doc pnx pun k s = Done ((v, None), s') -> clean s'.
  Proof.
    intros R H. unfold parse_doc in H. destruct (pnx k s) as [[[t [x|]] s1]| |] eqn:E; cbn [obind] in H; try discriminate. destruct (pnx_ready _ _ _ _ R E) as (R1 & _).
    pose proof (pun_ready s1 t R1) as HD. destruct (ttyp t) eqn:TT; try discriminate;
      (destruct (parseValue pnx pun k (pun s1 t)) as [[[w [x|]] s2]| |] eqn:E2; cbn [obind] in H; try discriminate; injection H as _ <-;
       destruct (w_value _ _ _ _ _ _ HD E2) as (_ & W); apply W; rewrite TT; auto).
  Qed.
End Text.
