(** Faults of the reader under the JSON lexer and parser: while the error after the text has not been met, nothing depends on what
    comes after the text; once it is met, it is what is returned. *)
From Verif Require Import Base GoMap Iter IterSpec IterProofs Readers Stream Union Rest Json JsonLex JsonParse JsonSim JsonSpec JsonTokProofs JsonParseProofs JsonDocProofs JsonApiProofs JsonRejectProofs.
Open Scope go_scope.
Open Scope Z_scope.

Section Ft.
  Variable e : err.
  Hypothesis NE : e <> EOI.

  Definition same_later {S0 A T} (ext : list T -> S0 -> S0) (f : err -> S0 -> outcome (A * S0)) (s : S0) (r : A) (s' : S0) : Prop :=
    forall q e2, f e2 (ext q s) = Done (r, ext q s').
  Definition tail {T} (q l : list T) : list T := l ++ q.

  Notation nxZ := (list_nx (T := Z)).
  Notation unZ := (list_un (T := Z)).
  Notation ends r := (snd r = Some e).

  Ltac hyp H := match type of H with Done _ = Done _ => injection H; clear H; intros; subst end.
  Ltac br0 H := match type of H with (if ?b then _ else _) = _ => destruct b end.
  Ltac atend H := cbn in H; left; repeat br0 H; first [hyp H; cbn; reflexivity | destruct e; [congruence|..]; cbn in H; hyp H; reflexivity].

  Ltac br := match goal with
    | H : (if ?b then _ else _) = Done _ |- _ => destruct b eqn:?
    end.
  (** [l] is what is read next *)
  Ltac rd l H := destruct l as [|? ?]; [ try (atend H) | cbn [list_nx obind] in H ].
  Ltac fin H := hyp H; right; intros q e2; cbn [tail app list_nx obind fst]; cbn;
    repeat match goal with B : ?b = true |- _ => rewrite B | B : ?b = false |- _ => rewrite B end; reflexivity.

  Lemma ft_read_hex n : forall h k l r l', read_hex (nxZ e) n h k l = Done (r, l') -> ends r \/ same_later tail (fun e2 => read_hex (nxZ e2) n h k) l r l'.
  Proof.
    induction n as [|n IH]; intros h k l r l' H; cbn [read_hex] in H; [fin H|].
    rd l H. repeat br; try (destruct (IH _ _ _ _ _ H) as [A|A]; [left; exact A|right; intros q e2; cbn; rewrite Heqb; try rewrite Heqb0; try rewrite Heqb1; apply A]).
    fin H.
  Qed.

  Ltac norm A := unfold same_later, tail in A; cbv beta in A; unfold list_un in A; cbn [app] in A.
  Ltac flat := unfold list_un; cbn [obind fst snd list_nx list_un app negb].
  Ltac replay := repeat (progress (flat;
    repeat match goal with B : ?b = true |- context [?b] => rewrite B | B : ?b = false |- context [?b] => rewrite B end;
    try match goal with A : forall q e2, _ = Done _ |- _ => rewrite A end)).
  Ltac fin2 H := hyp H; right; intros ?q ?e2; unfold tail; replay; reflexivity.
  Ltac sub L H :=
    match type of H with obind (?g) _ = _ =>
      let E := fresh "E" in let A := fresh "A" in
      destruct g as [[[? [?|]] ?]| |] eqn:E; cbn [obind] in H; try discriminate; destruct (L _ _ _ E) as [A|A];
      [ cbn in A; injection A as A; subst; try (atend H) | norm A | cbn in A; discriminate | norm A ] end.

  Lemma ft_hex4 h k l r l' : read_hex (nxZ e) 4 h k l = Done (r, l') -> ends r \/ same_later tail (fun e2 => read_hex (nxZ e2) 4 h k) l r l'.
  Proof. apply ft_read_hex. Qed.
  Ltac goon := match goal with H : _ = Done _ |- _ => repeat br; try (fin2 H) end.

  Lemma ft_unicode k l r l' : lex_unicode (nxZ e) k l = Done (r, l') -> ends r \/ same_later tail (fun e2 => lex_unicode (nxZ e2) k) l r l'.
  Proof.
    intros H. unfold same_later. unfold lex_unicode in *.
    sub (ft_hex4 0 k) H; [fin2 H|]. repeat br; [|fin2 H].
    rd l0 H. goon. rd l0 H. goon. sub (ft_hex4 0 k) H; [fin2 H|]. goon. 
  Qed.
  Lemma ft_escape v k l r l' : lex_escape (nxZ e) v k l = Done (r, l') -> ends r \/ same_later tail (fun e2 => lex_escape (nxZ e2) v k) l r l'.
  Proof.
    intros H. unfold same_later. unfold lex_escape in *. goon. destruct (ft_unicode _ _ _ _ H) as [A|A]; [left; exact A|right; exact A].
  Qed.
  Lemma ft_str k : forall str l r l', str_loop (nxZ e) k str l = Done (r, l') -> ends r \/ same_later tail (fun e2 => str_loop (nxZ e2) k str) l r l'.
  Proof.
    induction k as [|k IH]; intros str l r l' H; [discriminate|]. unfold same_later. cbn [str_loop] in *.
    rd l H. goon.
    - rd l H. goon.
      + destruct (IH _ _ _ _ H) as [A|A]; [left; exact A|right]. norm A. intros q e2. unfold tail. replay. reflexivity.
      + sub (ft_escape z0 k) H; [fin2 H|]. goon. destruct (IH _ _ _ _ H) as [A2|A2]; [left; exact A2|right]. norm A2. intros q e2. unfold tail. flat. rewrite Heqb, Heqb0, Heqb1, A. flat. rewrite Heqb2. apply A2.
    - destruct (IH _ _ _ _ H) as [A|A]; [left; exact A|right]. norm A. intros q e2. unfold tail. replay. reflexivity.
  Qed.
  Ltac again L := destruct L as [?A|?A]; [left; assumption|right; match goal with A : same_later _ _ _ _ _ |- _ => norm A end; intros ?q ?e2; unfold tail; replay; try reflexivity; unfold list_un; try (match goal with A : forall q e2, _ = Done _ |- _ => apply A end)].
  Ltac num H := unfold num_die, num_tok in H.
  Lemma ft_exp_loop k : forall str hd l r l', num_exp_loop (nxZ e) unZ k str hd l = Done (r, l') -> ends r \/ same_later tail (fun e2 => num_exp_loop (nxZ e2) unZ k str hd) l r l'.
  Proof.
    induction k as [|k IH]; intros str hd l r l' H; [discriminate|]. unfold same_later. cbn [num_exp_loop] in *. unfold num_die, num_tok in *.
    rd l H. goon. again (IH _ _ _ _ _ H).
  Qed.
  Lemma ft_exp k str l r l' : num_exp (nxZ e) unZ k str l = Done (r, l') -> ends r \/ same_later tail (fun e2 => num_exp (nxZ e2) unZ k str) l r l'.
  Proof.
    intros H. unfold same_later. unfold num_exp in *. unfold num_die in *.
    rd l H. goon; again (ft_exp_loop _ _ _ _ _ _ H).
  Qed.
  Lemma ft_frac_loop k : forall str hd l r l', num_frac_loop (nxZ e) unZ k str hd l = Done (r, l') -> ends r \/ same_later tail (fun e2 => num_frac_loop (nxZ e2) unZ k str hd) l r l'.
  Proof.
    induction k as [|k IH]; intros str hd l r l' H; [discriminate|]. unfold same_later. cbn [num_frac_loop] in *. unfold num_die, num_tok in *.
    rd l H. goon. - again (IH _ _ _ _ _ H). - again (ft_exp _ _ _ _ _ H).
  Qed.
  Lemma ft_int_loop k : forall str hd lz l r l', num_int_loop (nxZ e) unZ k str hd lz l = Done (r, l') -> ends r \/ same_later tail (fun e2 => num_int_loop (nxZ e2) unZ k str hd lz) l r l'.
  Proof.
    induction k as [|k IH]; intros str hd lz l r l' H; [discriminate|]. unfold same_later. cbn [num_int_loop] in *. unfold num_die, num_tok in *.
    rd l H. goon. - again (IH _ _ _ _ _ _ H). - again (ft_frac_loop _ _ _ _ _ _ H). - again (ft_exp _ _ _ _ _ H).
  Qed.
  Lemma ft_word k : forall str l r l', word_loop (nxZ e) unZ k str l = Done (r, l') -> ends r \/ same_later tail (fun e2 => word_loop (nxZ e2) unZ k str) l r l'.
  Proof.
    induction k as [|k IH]; intros str l r l' H; [discriminate|]. unfold same_later. cbn [word_loop] in *.
    rd l H. goon. again (IH _ _ _ _ H).
  Qed.
  Lemma ft_ws k : forall l r l', ws_loop (nxZ e) k l = Done (r, l') -> ends r \/ same_later tail (fun e2 => ws_loop (nxZ e2) k) l r l'.
  Proof.
    induction k as [|k IH]; intros l r l' H; [discriminate|]. unfold same_later. cbn [ws_loop] in *.
    rd l H. goon. again (IH _ _ _ H).
  Qed.
  Lemma ft_lex k l r l' : lex (nxZ e) unZ k l = Done (r, l') -> ends r \/ same_later tail (fun e2 => lex (nxZ e2) unZ k) l r l'.
  Proof.
    intros H. unfold same_later. unfold lex in *. rd l H. flat. unfold list_un in H at 1. 
    sub (ft_ws k) H; [fin2 H|]. unfold lexString, lexNumber, lexBooleanNull in *. goon.
    - cbn [list_un list_nx obind fst] in H. again (ft_str _ _ _ _ _ H).
    - cbn [list_un list_nx obind fst] in H. again (ft_int_loop _ _ _ _ _ _ _ H).
    - unfold list_un in H at 2. again (ft_word _ _ _ _ _ H).
  Qed.

  Notation nxT := (list_nx (T := token)).
  Notation unT := (list_un (T := token)).
  Definition ft_value (pv : err -> stepfn (list token) value) : Prop :=
    forall k l r l', pv e k l = Done (r, l') -> ends r \/ same_later tail (fun e2 => pv e2 k) l r l'.

  Ltac tk H := match type of H with (match ttyp ?t with _ => _ end) = _ => destruct (ttyp t) eqn:? end.
  Ltac replayT := repeat (progress (flat;
    repeat match goal with B : ttyp ?t = _ |- context [ttyp ?t] => rewrite B end;
    try match goal with A : forall q e2, _ = Done _ |- _ => rewrite A end)).
  Ltac finT H := hyp H; right; intros ?q ?e2; unfold tail; replayT; try reflexivity.
  Lemma ft_obj pv : ft_value pv -> forall k obj l r l', obj_loop (nxT e) unT (pv e) k obj l = Done (r, l') ->
    ends r \/ same_later tail (fun e2 => obj_loop (nxT e2) unT (pv e2) k obj) l r l'.
  Proof.
    intros PV. induction k as [|k IH]; intros obj l r l' H; [discriminate|]. unfold same_later. cbn [obj_loop] in *.
    rd l H. tk H; try (finT H; fail).
    destruct (mget str_eqb obj (tval t)) eqn:MG; [finT H; rewrite MG; reflexivity|].
    rd l H. tk H; try (finT H; rewrite MG; replayT; reflexivity; fail).
    rd l H. unfold list_un in H at 1.
    sub (PV k) H; [finT H; rewrite MG; replayT; reflexivity|].
    rd l0 H. tk H; try (finT H; rewrite MG; replayT; reflexivity; fail).
    destruct (IH _ _ _ _ H) as [A2|A2]; [left; assumption|right]. norm A2. intros q e2. unfold tail. flat. rewrite Heqt0. flat. rewrite MG. flat. rewrite Heqt1. flat. rewrite A. flat. rewrite Heqt3. apply A2.
  Qed.

  Lemma ft_object pv : ft_value pv -> ft_value (fun e2 => parse_object (nxT e2) unT (pv e2)).
  Proof.
    intros PV k l r l' H. unfold same_later. unfold parse_object in *. destruct l as [|t l]; cbn [list_nx obind] in H.
    - destruct (ft_obj pv PV _ _ _ _ _ H) as [A|A]; [left; assumption|]. left. destruct k as [|k]; cbn in H; [discriminate|]. hyp H. destruct e; [congruence|..]; reflexivity.
    - again (ft_obj pv PV _ _ _ _ _ H).
  Qed.

  Definition tail2 (q : list token) (st : bool * list token) : bool * list token := (fst st, snd st ++ q).
  Lemma ft_array pv : ft_value pv -> forall k st r st', array_gen (nxT e) unT (pv e) k st = Done (r, st') ->
    ends r \/ same_later tail2 (fun e2 => array_gen (nxT e2) unT (pv e2) k) st r st'.
  Proof.
    intros PV k [[|] l] r st' H; unfold same_later, tail2; unfold array_gen in *; cbn [fst snd].
    - destruct l as [|t l]; [left; cbn in H; hyp H; destruct e; [congruence|..]; reflexivity|]. cbn [list_nx obind] in H.
      rd l H. tk H; try (finT H; fail); sub (PV k) H; finT H.
    - rd l H. tk H; try (finT H; fail). rd l H. sub (PV k) H; finT H.
  Qed.

  Definition tail3 (q : list token) (it : impl (bool * list token) value) : impl (bool * list token) value :=
    mkImpl (fn_live it) (tail2 q (src it)) (buffer it) (last_err it).
  Lemma ft_next pv : ft_value pv -> forall k it r it', next (array_gen (nxT e) unT (pv e)) k it = Done (r, it') ->
    ends r \/ same_later tail3 (fun e2 => next (array_gen (nxT e2) unT (pv e2)) k) it r it'.
  Proof.
    intros PV k [lv s b le] r it' H. unfold same_later, tail3. unfold next in *. cbn [fn_live src buffer last_err] in *.
    destruct (nth_error b (length b - 1)); [hyp H; right; reflexivity|]. destruct lv; [|hyp H; right; reflexivity].
    destruct (array_gen (nxT e) unT (pv e) k s) as [[[v oe] s1]| |] eqn:E; cbn [obind] in H; try discriminate.
    destruct (ft_array pv PV _ _ _ _ E) as [A|A].
    - cbn in A. subst. hyp H. left. reflexivity.
    - right. intros q e2. unfold same_later in A. rewrite A. cbn [obind]. destruct oe; hyp H; reflexivity.
  Qed.

  Lemma ft_pull pv body : ft_value pv -> forall loop k acc it r it',
    pull_loop (next (array_gen (nxT e) unT (pv e))) body (fun (slc : list value) e0 => match e0 with EOI => (slc, None) | _ => ([], Some e0) end) loop k acc it = Done (r, it') ->
    (forall a v x, body a v = Done x -> exists a', x = inl a') ->
    ends r \/ same_later tail3 (fun e2 it => pull_loop (next (array_gen (nxT e2) unT (pv e2))) body (fun (slc : list value) e0 => match e0 with EOI => (slc, None) | _ => ([], Some e0) end) loop k acc it) it r it'.
  Proof.
    intros PV. induction loop as [|loop IH]; intros k acc it r it' H HB; [discriminate|]. unfold same_later. cbn [pull_loop] in *.
    destruct (next (array_gen (nxT e) unT (pv e)) k it) as [[[v [e1|]] it1]| |] eqn:E; cbn [obind] in H; try discriminate;
      destruct (ft_next pv PV _ _ _ _ E) as [A|A].
    - cbn in A. injection A as ->. hyp H. left. destruct e; [congruence|..]; reflexivity.
    - right. intros q e2. unfold same_later in A. rewrite A. cbn [obind]. hyp H. reflexivity.
    - discriminate.
    - destruct (body acc v) as [x| |] eqn:EB; cbn [obind] in H; try discriminate. destruct (HB _ _ _ EB) as (a' & ->).
      destruct (IH _ _ _ _ _ H HB) as [A2|A2]; [left; exact A2|right]. intros q e2. unfold same_later in A, A2. rewrite A. cbn [obind]. rewrite EB. cbn [obind]. apply A2.
  Qed.

  Lemma ft_collect pv : ft_value pv -> forall k l r l', collect_array (nxT e) unT (pv e) k l = Done (r, l') ->
    ends r \/ same_later tail (fun e2 => collect_array (nxT e2) unT (pv e2) k) l r l'.
  Proof.
    intros PV k l r l' H. unfold same_later. unfold collect_array in *. unfold next at 1 in H. cbn [ofIter buffer length nth_error Nat.sub fn_live src] in H.
    unfold st_to_slice at 1 in H.
    destruct (pull_loop _ _ _ k k [] (parse_array l)) as [[[v oe] it1]| |] eqn:E; cbn [obind] in H; try discriminate.
    apply (ft_pull pv _ PV) in E; [|intros a v0 x HX; inversion HX; eauto].
    destruct E as [A|A].
    - cbn in A. subst oe. cbn in H. hyp H. left. reflexivity.
    - right. intros q e2. unfold same_later in A. unfold next at 1. cbn [ofIter buffer length nth_error Nat.sub fn_live src].
      unfold st_to_slice at 1. change (parse_array (tail q l)) with (tail3 q (parse_array l)). rewrite A. cbn [obind]. destruct oe; cbn in H |- *; hyp H; reflexivity.
  Qed.

  Lemma ft_parse_value d : ft_value (fun e2 => parse_value (nxT e2) unT d).
  Proof.
    induction d as [|d IH]; intros k l r l' H; [discriminate|]. unfold same_later. cbn [parse_value] in *.
    destruct l as [|t l]; cbn [list_nx obind fst] in H.
    - (* the zero token, whose type is that of an opening bracket, and then the error *)
      change (ttyp zv) with tOBracket in H. cbv iota in H.
      destruct (collect_array (nxT e) unT (parse_value (nxT e) unT d) k (unT [] zv)) as [[[v oe] l1]| |] eqn:E; cbn [obind] in H; try discriminate.
      assert (Q : oe = Some e); [|subst oe; hyp H; left; reflexivity].
      clear - E NE. unfold collect_array in E. unfold next at 1 in E. cbn [ofIter buffer length nth_error Nat.sub fn_live src] in E. unfold st_to_slice in E. cbv beta iota in E.
      destruct k as [|k]; [discriminate|]. cbn in E. destruct e; [congruence|..]; cbn in E; injection E; intros; subst; reflexivity.
    - tk H; try (finT H; fail).
      + sub (ft_collect _ IH k) H; finT H.
      + again (ft_object _ IH _ _ _ _ H). rewrite Heqt0. reflexivity.
      + destruct (numberToValue (ANumString (tval t))) as [v [e1|]] eqn:NV; [discriminate|]. finT H. rewrite NV. reflexivity.
  Qed.

  Lemma ft_doc k l r l' : parse_doc (nxT e) unT k l = Done (r, l') -> ends r \/ same_later tail (fun e2 => parse_doc (nxT e2) unT k) l r l'.
  Proof.
    intros H. unfold same_later. unfold parse_doc, parseValue in *. rd l H. unfold list_un in H at 1. tk H; try (finT H; fail);
      sub (ft_parse_value k k) H; finT H.
  Qed.
End Ft.
