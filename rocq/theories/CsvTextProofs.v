(** Proofs about the model of encoding/csv's reader. *)
From Coq Require Import List ZArith Bool Lia.
From Verif Require Import Base CsvText CsvTextSpec.
Import ListNotations.
Open Scope Z_scope.

(** ** small facts *)
Lemma cut_in c p r : ~ In c p -> cut c (p ++ c :: r) = (p, Some r).
Proof.
  induction p as [|x p IH]; intros N; cbn [app cut].
  - now rewrite Z.eqb_refl.
  - destruct (Z.eqb_spec x c); [exfalso; apply N; now left|]. rewrite IH; [reflexivity|]. intros I. apply N. now right.
Qed.
Lemma cut_out c p : ~ In c p -> cut c p = (p, None).
Proof.
  induction p as [|x p IH]; intros N; cbn [cut]; [reflexivity|].
  destruct (Z.eqb_spec x c); [exfalso; apply N; now left|]. rewrite IH; [reflexivity|]. intros I. apply N. now right.
Qed.
Lemma cut_spec c l : ~ In c (fst (cut c l)) /\ l = fst (cut c l) ++ match snd (cut c l) with Some r => c :: r | None => [] end.
Proof.
  induction l as [|x l IH]; cbn [cut]; [cbn; auto|]. destruct (Z.eqb_spec x c) as [->|N]; [cbn; auto|].
  destruct (cut c l) as [p r]. cbn [fst snd] in *. destruct IH as [A B]. split; [intros [E|I]; [congruence|tauto]|]. cbn. now f_equal.
Qed.
Lemma chop_cr_snoc l : chop_cr (l ++ [CR]) = l.
Proof.
  induction l as [|x l IH]; [reflexivity|]. cbn [app]. destruct (l ++ [CR]) as [|y m] eqn:E; [destruct l; discriminate|].
  change (chop_cr (x :: y :: m)) with (x :: chop_cr (y :: m)). rewrite IH. reflexivity.
Qed.
Lemma chop_cr_cons x y l : chop_cr (x :: y :: l) = x :: chop_cr (y :: l).
Proof. reflexivity. Qed.
Lemma chop_cr_id l : last l 0 <> CR -> chop_cr l = l.
Proof.
  induction l as [|x l IH]; intros N; [reflexivity|]. destruct l as [|y l].
  - cbn in *. destruct (Z.eqb_spec x CR); congruence.
  - rewrite chop_cr_cons, IH; [reflexivity|exact N].
Qed.
Lemma chop_lf_snoc l : chop_lf (l ++ [LF]) = l.
Proof.
  induction l as [|x l IH]; [reflexivity|]. cbn [app]. destruct (l ++ [LF]) as [|y m] eqn:E; [destruct l; discriminate|].
  change (chop_lf (x :: y :: m)) with (x :: chop_lf (y :: m)). rewrite IH. reflexivity.
Qed.
Lemma chop_lf_id l : ~ In LF l -> chop_lf l = l.
Proof.
  induction l as [|x l IH]; intros N; [reflexivity|]. destruct l as [|y l].
  - cbn. destruct (Z.eqb_spec x LF); [exfalso; apply N; now left|reflexivity].
  - change (chop_lf (x :: y :: l)) with (x :: chop_lf (y :: l)). rewrite IH; [reflexivity|]. intros I. apply N. now right.
Qed.
Lemma chop_cr_len l : (length (chop_cr l) <= length l)%nat.
Proof.
  induction l as [|x l IH]; [cbn; lia|]. destruct l as [|y l]; [cbn; destruct (x =? CR); cbn; lia|]. rewrite chop_cr_cons. cbn [length] in *. lia.
Qed.
Lemma has_false c l : has c l = false <-> ~ In c l.
Proof.
  unfold has. split.
  - intros H I. assert (existsb (Z.eqb c) l = true) by (apply existsb_exists; exists c; split; [exact I|apply Z.eqb_refl]). congruence.
  - intros N. destruct (existsb (Z.eqb c) l) eqn:E; [|reflexivity]. apply existsb_exists in E as (x & I & Q). apply Z.eqb_eq in Q. subst. tauto.
Qed.
Lemma is_nl_true l : is_nl l = true -> l = [] \/ l = [LF].
Proof. destruct l as [|x [|y l]]; cbn; intros H; try discriminate; [auto|]. apply Z.eqb_eq in H. subst. auto. Qed.

(** ** lines *)
Section Reader.
  Variable e0 : err.
  Notation read_line := (read_line e0).
  Notation skip_blank := (skip_blank e0).
  Notation read_fields := (read_fields e0).

  (** the line, the error as the field loop sees it, the rest *)
  Definition noeof (e : option err) : option err := match e with Some EOF => None | _ => e end.
  Definition view (R : bytes) : (bytes * option err) * bytes := let '((l, er), t) := read_line R in ((l, noeof er), t).
  (** the error seen at the end of the text *)
  Definition at_end : option err := match e0 with EOF => None | _ => Some e0 end.

  Lemma view_nil : view [] = (([], at_end), []).
  Proof. unfold view, CsvText.read_line, at_end. cbn. destruct e0; reflexivity. Qed.
  Lemma view_lf R : view (LF :: R) = (([LF], None), R).
  Proof. reflexivity. Qed.
  Lemma view_crlf R : view (CR :: LF :: R) = (([LF], None), R).
  Proof. reflexivity. Qed.
  Lemma view_cons c R l er t : c <> LF -> (c = CR -> match R with [] => e0 <> EOF | x :: _ => x <> LF end) ->
    view R = ((l, er), t) -> view (c :: R) = ((c :: l, er), t).
  Proof.
    intros N1 N2. unfold view, CsvText.read_line. cbn [cut]. destruct (Z.eqb_spec c LF); [congruence|].
    destruct R as [|x R].
    - cbn [cut]. intros E. destruct (Z.eqb_spec c CR) as [->|Nc].
      + specialize (N2 eq_refl). destruct e0; try congruence; injection E as <- <- <-; reflexivity.
      + cbn [chop_cr]. apply Z.eqb_neq in Nc. rewrite Nc. destruct e0; injection E as <- <- <-; reflexivity.
    - cbn [cut]. destruct (Z.eqb_spec x LF) as [->|Nx].
      + intros E. injection E as <- <- <-. cbn [chop_cr app]. destruct (Z.eqb_spec c CR) as [->|_]; [exfalso; now apply N2|]. reflexivity.
      + destruct (cut LF R) as [p [r|]].
        * rewrite chop_cr_cons. intros E. injection E as <- <- <-. reflexivity.
        * rewrite chop_cr_cons. destruct e0; intros E; injection E as <- <- <-; reflexivity.
  Qed.
  Lemma view_app a R l er t : ~ In LF a -> (a <> [] -> last a 0 <> CR) -> view R = ((l, er), t) -> view (a ++ R) = ((a ++ l, er), t).
  Proof.
    induction a as [|c a IH]; intros N La V; [exact V|]. cbn [app]. apply view_cons.
    - intros ->. apply N. now left.
    - intros ->. destruct a as [|x a]; [exfalso; apply La; [discriminate|reflexivity]|]. cbn. intros ->. apply N. right. now left.
    - apply IH; [intros I; apply N; now right| |exact V]. intros Na. specialize (La ltac:(discriminate)). destruct a; [congruence|exact La].
  Qed.
  (** the converse *)
  Lemma view_peel R c l er t : view R = ((c :: l, er), t) -> c <> LF -> exists R', R = c :: R' /\ view R' = ((l, er), t) /\
    (c = CR -> match R' with [] => e0 <> EOF | x :: _ => x <> LF end).
  Proof.
    intros V N. destruct R as [|x R]; [rewrite view_nil in V; discriminate|].
    destruct (Z.eqb_spec x LF) as [->|Nx]; [rewrite view_lf in V; injection V; congruence|].
    destruct (view R) as [[l' er'] t'] eqn:V'.
    destruct (Z.eqb_spec x CR) as [->|Nc].
    - destruct R as [|y R].
      + destruct (at_end) eqn:A.
        * assert (e0 <> EOF) by (unfold at_end in A; destruct e0; congruence).
          rewrite (view_cons CR [] l' er' t') in V; [|discriminate|auto|exact V']. injection V as <- <- <- <-. exists []. auto.
        * exfalso. unfold at_end in A. unfold view, CsvText.read_line in V. destruct e0; try discriminate A. cbn in V. discriminate V.
      + destruct (Z.eqb_spec y LF) as [->|Ny]; [rewrite view_crlf in V; injection V; congruence|].
        rewrite (view_cons CR (y :: R) l' er' t') in V; [|discriminate|auto|exact V']. injection V as <- <- <- <-. exists (y :: R). auto.
    - rewrite (view_cons x R l' er' t') in V; [|exact Nx|congruence|exact V']. injection V as <- <- <- <-. exists R. split; [reflexivity|]. split; [exact V'|congruence].
  Qed.
  Lemma view_head_lf R l er t : view R = ((LF :: l, er), t) -> l = [] /\ er = None /\ (R = LF :: t \/ R = CR :: LF :: t).
  Proof.
    intros V. destruct R as [|x R]; [rewrite view_nil in V; discriminate|].
    destruct (Z.eqb_spec x LF) as [->|Nx]; [rewrite view_lf in V; injection V as <- <- <-; auto|].
    destruct (view R) as [[l' er'] t'] eqn:V'.
    destruct (Z.eqb_spec x CR) as [->|Nc].
    - destruct R as [|y R].
      + unfold view, CsvText.read_line in V. cbn in V. destruct e0; cbn in V; discriminate V.
      + destruct (Z.eqb_spec y LF) as [->|Ny]; [rewrite view_crlf in V; injection V as <- <- <-; auto|].
        rewrite (view_cons CR (y :: R) l' er' t') in V; [|discriminate|auto|exact V']. discriminate V.
    - rewrite (view_cons x R l' er' t') in V; [|exact Nx|congruence|exact V']. injection V; congruence.
  Qed.
  Lemma view_peels a : forall R b er t, view R = ((a ++ b, er), t) -> b <> [] \/ ~ In LF a -> ~ In LF a /\ exists R', R = a ++ R' /\ view R' = ((b, er), t).
  Proof.
    induction a as [|c a IH]; intros R b er t V B; [split; [auto|]; exists R; auto|]. cbn [app] in V.
    destruct (Z.eqb_spec c LF) as [->|Nc].
    - exfalso. apply view_head_lf in V as (E & _). destruct B as [B|B]; [destruct a; cbn in E; [congruence|discriminate]|]. apply B. now left.
    - destruct (view_peel _ _ _ _ _ V Nc) as (R1 & -> & V1 & _).
      destruct (IH _ _ _ _ V1) as (Na & R' & -> & V'); [destruct B as [B|B]; [now left|right; intros I; apply B; now right]|].
      split; [intros [I|I]; [congruence|tauto]|]. exists R'. auto.
  Qed.
  (** a line end *)
  Definition closes (e : line_end) (t : bytes) : Prop := inner_end e \/ (t = [] /\ e0 = EOF).
  Lemma view_end e t : closes e t -> exists nl, view (end_text e ++ t) = ((nl, None), t) /\ (nl = [] \/ nl = [LF]).
  Proof.
    intros [[-> | ->]|(-> & E)].
    - exists [LF]. auto.
    - exists [LF]. auto.
    - unfold view, CsvText.read_line. rewrite E. destruct e; cbn; eauto.
  Qed.
  Lemma view_nl R l t : view R = ((l, None), t) -> is_nl l = true -> exists e, R = end_text e ++ t /\ closes e t.
  Proof.
    intros V H. apply is_nl_true in H as [-> | ->].
    - destruct R as [|x R].
      + rewrite view_nil in V. injection V as A <-. exists Nothing. split; [reflexivity|]. right. split; [reflexivity|]. unfold at_end in A. destruct e0; congruence.
      + destruct (Z.eqb_spec x LF) as [->|Nx]; [rewrite view_lf in V; discriminate|].
        destruct (view R) as [[l' er'] t'] eqn:V'. destruct (Z.eqb_spec x CR) as [->|Nc].
        * destruct R as [|y R].
          -- exists LoneCr. assert (e0 = EOF) by (unfold view, CsvText.read_line in V; cbn in V; destruct e0; cbn in V; congruence).
             assert (t = []) by (unfold view, CsvText.read_line in V; cbn in V; destruct e0; cbn in V; congruence). subst. split; [reflexivity|right; auto].
          -- destruct (Z.eqb_spec y LF) as [->|Ny]; [rewrite view_crlf in V; discriminate|].
             rewrite (view_cons CR (y :: R) l' er' t') in V; [|discriminate|auto|exact V']. discriminate.
        * rewrite (view_cons x R l' er' t') in V; [|exact Nx|congruence|exact V']. discriminate.
    - apply view_head_lf in V as (_ & _ & [-> | ->]); [exists LineFeed|exists CrLf]; (split; [reflexivity|]); left; unfold inner_end; auto.
  Qed.
  Lemma view_empty R er t : view R = (([], er), t) -> t = [] /\ (er = None -> e0 = EOF) /\ (er <> None -> R = []).
  Proof.
    intros V. destruct R as [|y R].
    - rewrite view_nil in V. injection V as <- <-. split; [reflexivity|]. split; [unfold at_end; destruct e0; congruence|reflexivity].
    - destruct (Z.eqb_spec y LF) as [->|Ny]; [rewrite view_lf in V; discriminate|]. destruct (view R) as [[l' er'] t'] eqn:V'.
      destruct (Z.eqb_spec y CR) as [->|Ncr]; [|rewrite (view_cons y R l' er' t') in V; [discriminate|exact Ny|congruence|exact V']].
      destruct R as [|z R].
      + unfold view, CsvText.read_line in V. cbn in V. destruct e0; cbn in V; try discriminate. injection V as <- <-. split; [reflexivity|]. split; congruence.
      + destruct (Z.eqb_spec z LF) as [->|Nz]; [rewrite view_crlf in V; discriminate|].
        rewrite (view_cons CR (z :: R) l' er' t') in V; [discriminate|discriminate|auto|exact V'].
  Qed.
  Lemma view_len R l er t : view R = ((l, er), t) -> (length l + length t <= length R)%nat.
  Proof.
    unfold view, CsvText.read_line. pose proof (cut_spec LF R) as [_ E]. destruct (cut LF R) as [p [r|]]; cbn [fst snd] in E.
    - intros V. injection V as <- <- <-. rewrite E. pose proof (chop_cr_len p). rewrite !app_length. cbn [length]. lia.
    - rewrite app_nil_r in E. subst p. pose proof (chop_cr_len R). destruct R as [|x R]; [intros V; injection V as <- _ <-; cbn; lia|].
      remember (chop_cr (x :: R)) as k eqn:Hk; clear Hk. destruct e0; intros V; injection V as <- <- <-; cbn [length] in *; lia.
  Qed.

  (** ** the fields *)
  Lemma fields_fuel : forall f1 f2 line er t done cur, (length line + length t < f1)%nat -> (length line + length t < f2)%nat ->
    read_fields f1 line er t done cur = read_fields f2 line er t done cur.
  Proof.
    induction f1 as [|f1 IH]; intros f2 line er t done cur L1 L2; [lia|]. destruct f2 as [|f2]; [lia|]. cbn [CsvText.read_fields].
    destruct cur as [buf|].
    - pose proof (cut_spec DQ line) as [_ E]. destruct (cut DQ line) as [p [r|]]; cbn [fst snd] in E.
      + assert (length line = length p + S (length r))%nat by (rewrite E at 1; rewrite app_length; reflexivity).
        destruct r as [|c r]; [reflexivity|]. cbn [length] in *.
        destruct c as [|c|c]; try reflexivity. repeat (destruct c as [c|c|]; try reflexivity); apply IH; lia.
      + destruct line as [|c line]; [reflexivity|]. destruct er; [reflexivity|].
        destruct (read_line t) as [[l' er'] t'] eqn:V. assert (V' : view t = ((l', noeof er'), t')) by (unfold view; now rewrite V).
        apply view_len in V'. cbn [length] in *. apply IH; lia.
    - assert (P : forall l, l = line -> match cut COMMA l with
          | (f, Some rest) => if has DQ f then ((done, Some ErrBareQuote), t) else read_fields f1 rest er t (done ++ [f]) None
          | (_, None) => if has DQ (chop_lf l) then ((done, Some ErrBareQuote), t) else ((done ++ [chop_lf l], er), t) end =
          match cut COMMA l with
          | (f, Some rest) => if has DQ f then ((done, Some ErrBareQuote), t) else read_fields f2 rest er t (done ++ [f]) None
          | (_, None) => if has DQ (chop_lf l) then ((done, Some ErrBareQuote), t) else ((done ++ [chop_lf l], er), t) end).
      { intros l ->. pose proof (cut_spec COMMA line) as [_ E]. destruct (cut COMMA line) as [p [r|]]; cbn [fst snd] in E; [|reflexivity].
        assert (length line = length p + S (length r))%nat by (rewrite E at 1; rewrite app_length; reflexivity).
        destruct (has DQ p); [reflexivity|]. apply IH; lia. }
      destruct line as [|c line]; [apply P; reflexivity|]. specialize (P _ eq_refl).
      destruct c as [|c|c]; try exact P. repeat (destruct c as [c|c|]; try exact P). cbn [length] in *. apply IH; lia.
  Qed.
  Definition fieldsW (R : bytes) (done : list bytes) (cur : option bytes) : (list bytes * option err) * bytes :=
    let '((l, er), t) := view R in read_fields (S (length l + length t)) l er t done cur.
  Lemma fields_W f R l er t done cur : view R = ((l, er), t) -> (length l + length t < f)%nat -> read_fields f l er t done cur = fieldsW R done cur.
  Proof. intros V L. unfold fieldsW. rewrite V. apply fields_fuel; lia. Qed.

  Lemma W_open R done : fieldsW (DQ :: R) done None = fieldsW R done (Some []).
  Proof.
    destruct (view R) as [[l er] t] eqn:V. assert (V2 : view (DQ :: R) = ((DQ :: l, er), t)) by (apply view_cons; [discriminate|discriminate|exact V]).
    unfold fieldsW at 1. rewrite V2. cbn [CsvText.read_fields length]. change (match DQ with 34 => ?a | _ => ?b end) with a.
    apply fields_W; [exact V|lia].
  Qed.
  Lemma plain_step f line er t done : match line with c :: _ => c <> DQ | [] => True end ->
    read_fields (S f) line er t done None = match cut COMMA line with
          | (p, Some rest) => if has DQ p then ((done, Some ErrBareQuote), t) else read_fields f rest er t (done ++ [p]) None
          | (_, None) => if has DQ (chop_lf line) then ((done, Some ErrBareQuote), t) else ((done ++ [chop_lf line], er), t) end.
  Proof.
    intros N. destruct line as [|c line]; [reflexivity|]. cbn [CsvText.read_fields].
    destruct c as [|c|c]; try reflexivity. repeat (destruct c as [c|c|]; try reflexivity). exfalso. now apply N.
  Qed.
  Lemma W_plain s R done : ~ In COMMA s -> ~ In DQ s -> ~ In LF s -> fieldsW (s ++ COMMA :: R) done None = fieldsW R (done ++ [s]) None.
  Proof.
    intros N1 N2 N3. destruct (view R) as [[l er] t] eqn:V.
    assert (V2 : view (s ++ COMMA :: R) = ((s ++ COMMA :: l, er), t)).
    { change (COMMA :: R) with ([COMMA] ++ R). change (COMMA :: l) with ([COMMA] ++ l). rewrite !app_assoc. apply view_app; [| |exact V].
      - rewrite in_app_iff. intros [I|[I|[]]]; [tauto|discriminate].
      - intros _. rewrite last_last. discriminate. }
    unfold fieldsW at 1. rewrite V2. rewrite plain_step, cut_in by (exact N1 || (destruct s; cbn; [discriminate|intros ->; apply N2; now left])).
    apply has_false in N2. rewrite N2. apply fields_W; [exact V|]. rewrite app_length. cbn [length]. lia.
  Qed.
  Lemma view_plain_end s e t : ~ In LF s -> end_ok [Plain s] e -> closes e t -> exists nl, view (s ++ end_text e ++ t) = ((s ++ nl, None), t) /\ (nl = [] \/ nl = [LF]).
  Proof.
    intros N3 O C. destruct (view_end e t C) as (nl & V & Hn).
    destruct (Z.eq_dec (last s 0) CR) as [Q|Q].
    - destruct e; [contradiction| |contradiction|].
      + exists [LF]. split; [|auto]. destruct s as [|x s'] using rev_ind; [cbn in Q; discriminate|]. clear IHs'. rewrite last_last in Q. subst x.
        rewrite <- !app_assoc. destruct s' as [|y s'] using rev_ind; [reflexivity|]. clear IHs'.
        assert (G : view (CR :: CR :: LF :: t) = (([CR; LF], None), t)) by reflexivity.
        destruct (Z.eq_dec y CR) as [->|Ny].
        * assert (H : forall s' : bytes, ~ In LF s' -> view (s' ++ CR :: CR :: LF :: t) = ((s' ++ [CR; LF], None), t)).
          { clear. intros s'. induction s' as [|z s' IH]; intros N; [reflexivity|]. cbn [app]. apply view_cons; [intros ->; apply N; now left| |apply IH; intros I; apply N; now right].
            intros ->. destruct s' as [|w s']; cbn; [discriminate|intros ->; apply N; right; now left]. }
          apply (H (s' ++ [CR])). intros I. apply N3. apply in_or_app. now left.
        * apply (view_app (s' ++ [y]) (CR :: CR :: LF :: t) [CR; LF] None t); [intros I; apply N3; apply in_or_app; now left|rewrite last_last; auto|exact G].
      + destruct C as [[C|C]|(-> & E0)]; try discriminate. exists []. split; [|auto]. rewrite app_nil_r. cbn [app end_text].
        unfold view, CsvText.read_line. rewrite app_nil_r, cut_out by (rewrite in_app_iff; intros [I|[I|[]]]; [tauto|discriminate]). rewrite chop_cr_snoc. rewrite E0. destruct s; reflexivity.
    - exists nl. split; [|exact Hn]. apply view_app; [exact N3|auto|exact V].
  Qed.
  Lemma W_plain_end s e t done : ~ In COMMA s -> ~ In DQ s -> ~ In LF s -> end_ok [Plain s] e -> closes e t ->
    fieldsW (s ++ end_text e ++ t) done None = ((done ++ [s], None), t).
  Proof.
    intros N1 N2 N3 O C. destruct (view_plain_end s e t N3 O C) as (nl & V & Hn).
    unfold fieldsW. rewrite V. assert (N1' : ~ In COMMA (s ++ nl)) by (rewrite in_app_iff; intros [I|I]; [tauto|destruct Hn as [-> | ->]; [exact I|destruct I as [I|[]]; discriminate]]).
    rewrite plain_step, cut_out by (exact N1' || (destruct s; cbn; [destruct Hn as [-> | ->]; [exact I|discriminate]|intros ->; apply N2; now left])).
    assert (Q : chop_lf (s ++ nl) = s) by (destruct Hn as [-> | ->]; [rewrite app_nil_r; apply chop_lf_id; exact N3|apply chop_lf_snoc]).
    rewrite Q. apply has_false in N2. now rewrite N2.
  Qed.
  Lemma W_quote_quote R done buf : fieldsW (DQ :: DQ :: R) done (Some buf) = fieldsW R done (Some (buf ++ [DQ])).
  Proof.
    destruct (view R) as [[l er] t] eqn:V. assert (V1 : view (DQ :: R) = ((DQ :: l, er), t)) by (apply view_cons; [discriminate|discriminate|exact V]).
    assert (V2 : view (DQ :: DQ :: R) = ((DQ :: DQ :: l, er), t)) by (apply view_cons; [discriminate|discriminate|exact V1]).
    unfold fieldsW at 1. rewrite V2. cbn [CsvText.read_fields length cut]. rewrite Z.eqb_refl. cbn [app].
    change (match DQ with 34 => ?a | 44 => _ | _ => ?b end) with a. apply fields_W; [exact V|lia].
  Qed.
  Lemma W_quote_comma R done buf : fieldsW (DQ :: COMMA :: R) done (Some buf) = fieldsW R (done ++ [buf]) None.
  Proof.
    destruct (view R) as [[l er] t] eqn:V. assert (V1 : view (COMMA :: R) = ((COMMA :: l, er), t)) by (apply view_cons; [discriminate|discriminate|exact V]).
    assert (V2 : view (DQ :: COMMA :: R) = ((DQ :: COMMA :: l, er), t)) by (apply view_cons; [discriminate|discriminate|exact V1]).
    unfold fieldsW at 1. rewrite V2. cbn [CsvText.read_fields length cut]. rewrite Z.eqb_refl, app_nil_r.
    change (match COMMA with 34 => _ | 44 => ?a | _ => ?b end) with a. apply fields_W; [exact V|lia].
  Qed.
  (** anything else after a quote *)
  Lemma W_quote_other R done buf l er t : view R = ((l, er), t) -> match l with c :: _ => c <> DQ /\ c <> COMMA | [] => True end ->
    fieldsW (DQ :: R) done (Some buf) = if is_nl l then ((done ++ [buf], er), t) else ((done, Some ErrQuote), t).
  Proof.
    intros V N. assert (V1 : view (DQ :: R) = ((DQ :: l, er), t)) by (apply view_cons; [discriminate|discriminate|exact V]).
    unfold fieldsW at 1. rewrite V1. cbn [CsvText.read_fields length cut]. rewrite Z.eqb_refl, app_nil_r.
    destruct l as [|c l]; [reflexivity|]. destruct N as [A B].
    destruct c as [|c|c]; try reflexivity. repeat (destruct c as [c|c|]; try reflexivity); exfalso; [now apply B|now apply A].
  Qed.
  Lemma W_quote_end e t done buf : closes e t -> fieldsW (DQ :: end_text e ++ t) done (Some buf) = ((done ++ [buf], None), t).
  Proof.
    intros C. destruct (view_end e t C) as (nl & V & Hn). rewrite (W_quote_other _ _ _ _ _ _ V).
    - destruct Hn as [-> | ->]; reflexivity.
    - destruct Hn as [-> | ->]; [exact I|split; discriminate].
  Qed.
  (** one byte within quotes *)
  Lemma quoted_step f line er t done buf : ~ In DQ line -> line <> [] ->
    read_fields (S f) line er t done (Some buf) = match er with Some _ => ((done, er), t) | None =>
      let '((l', er'), t') := read_line t in read_fields f l' (noeof er') t' done (Some (buf ++ line)) end.
  Proof. intros N1 N2. cbn [CsvText.read_fields]. rewrite cut_out by exact N1. destruct line; [congruence|]. reflexivity. Qed.
  Lemma W_lf R done buf : fieldsW (LF :: R) done (Some buf) = fieldsW R done (Some (buf ++ [LF])).
  Proof.
    unfold fieldsW at 1. rewrite view_lf. rewrite quoted_step by (try discriminate; intros [I|[]]; discriminate).
    destruct (read_line R) as [[l er] t] eqn:V. assert (V' : view R = ((l, noeof er), t)) by (unfold view; now rewrite V).
    apply fields_W; [exact V'|]. apply view_len in V'. cbn [length]. lia.
  Qed.
  Lemma W_crlf R done buf : fieldsW (CR :: LF :: R) done (Some buf) = fieldsW R done (Some (buf ++ [LF])).
  Proof.
    unfold fieldsW at 1. rewrite view_crlf. rewrite quoted_step by (try discriminate; intros [I|[]]; discriminate).
    destruct (read_line R) as [[l er] t] eqn:V. assert (V' : view R = ((l, noeof er), t)) by (unfold view; now rewrite V).
    apply fields_W; [exact V'|]. apply view_len in V'. cbn [length]. lia.
  Qed.
  Lemma W_char c R done buf : c <> DQ -> c <> LF -> (c = CR -> match R with [] => False | x :: _ => x <> LF end) -> (R = [] -> e0 = EOF) ->
    fieldsW (c :: R) done (Some buf) = fieldsW R done (Some (buf ++ [c])).
  Proof.
    intros N1 N2 N3 N4. destruct (view R) as [[l er] t] eqn:V.
    assert (V2 : view (c :: R) = ((c :: l, er), t)) by (apply view_cons; [exact N2|intros Q; specialize (N3 Q); destruct R; [contradiction|exact N3]|exact V]).
    unfold fieldsW at 1. rewrite V2. unfold fieldsW. rewrite V. cbn [length]. pose proof (cut_spec DQ l) as [Np E].
    cbn [CsvText.read_fields cut]. destruct (Z.eqb_spec c DQ) as [|_]; [congruence|]. destruct (cut DQ l) as [p [r|]]; cbn [fst snd] in *.
    - assert (length l = length p + S (length r))%nat by (rewrite E at 1; rewrite app_length; reflexivity).
      destruct r as [|d r].
      + cbn [is_nl]. now rewrite <- app_assoc.
      + assert (Q : forall k : bytes, buf ++ (c :: p) ++ k = (buf ++ [c]) ++ p ++ k) by (intros k; rewrite <- app_assoc; reflexivity).
        assert (Q' : buf ++ c :: p = (buf ++ [c]) ++ p) by (rewrite <- app_assoc; reflexivity).
        rewrite Q, Q'. destruct d as [|d|d]; try reflexivity. cbn [length] in *. repeat (destruct d as [d|d|]; try reflexivity); apply fields_fuel; lia.
    - destruct l as [|x l].
      + destruct (view_empty _ _ _ V) as (-> & Q1 & Q2). destruct er as [e|].
        * specialize (Q2 ltac:(discriminate)). specialize (N4 Q2). subst R. rewrite view_nil in V. unfold at_end in V. rewrite N4 in V. discriminate.
        * unfold CsvText.read_line. rewrite Q1 by reflexivity. reflexivity.
      + destruct er as [e|]; [reflexivity|]. destruct (read_line t) as [[l' er'] t'] eqn:V'.
        assert (V3 : view t = ((l', noeof er'), t')) by (unfold view; now rewrite V'). apply view_len in V3. cbn [length].
        replace ((buf ++ [c]) ++ x :: l) with (buf ++ c :: x :: l) by (rewrite <- app_assoc; reflexivity). apply fields_fuel; lia.
  Qed.

  (** ** rows *)
  Lemma unix_cons c s : (c = CR -> match s with LF' :: _ => LF' <> LF | [] => True end) -> unix (c :: s) = c :: unix s.
  Proof.
    intros N. destruct s as [|y s]; [reflexivity|]. cbn [unix]. destruct (Z.eqb_spec c CR) as [->|_]; [|reflexivity].
    destruct (Z.eqb_spec y LF) as [->|_]; [exfalso; now apply N|reflexivity].
  Qed.
  Lemma unix_crlf s : unix (CR :: LF :: s) = unix (LF :: s).
  Proof. reflexivity. Qed.
  Lemma dq_cons c s : double_quotes (c :: s) = (if c =? DQ then [DQ; DQ] else [c]) ++ double_quotes s.
  Proof. reflexivity. Qed.
  Lemma dq_plain c s : c <> DQ -> double_quotes (c :: s) = c :: double_quotes s.
  Proof. intros N. rewrite dq_cons. apply Z.eqb_neq in N. now rewrite N. Qed.
  Lemma W_quoted s R done : forall buf, fieldsW (double_quotes s ++ DQ :: R) done (Some buf) = fieldsW (DQ :: R) done (Some (buf ++ unix s)).
  Proof.
    induction s as [|c s IH]; intros buf; [cbn; now rewrite app_nil_r|].
    destruct (Z.eq_dec c DQ) as [->|N1].
    - rewrite dq_cons. cbn [Z.eqb Pos.eqb DQ app]. change (DQ :: DQ :: double_quotes s ++ DQ :: R) with (DQ :: DQ :: (double_quotes s ++ DQ :: R)).
      rewrite W_quote_quote, IH, unix_cons by discriminate. now rewrite <- app_assoc.
    - rewrite dq_plain by exact N1. cbn [app]. destruct (Z.eq_dec c LF) as [->|N2].
      + rewrite W_lf, IH, unix_cons by discriminate. now rewrite <- app_assoc.
      + destruct s as [|y s].
        * cbn [double_quotes flat_map app]. rewrite W_char by (auto || discriminate || (intros; discriminate)). reflexivity.
        * destruct (Z.eq_dec c CR) as [->|N3]; [destruct (Z.eq_dec y LF) as [->|N4]|].
          -- rewrite unix_crlf. rewrite <- IH. rewrite dq_plain by discriminate. cbn [app]. now rewrite W_crlf, W_lf.
          -- rewrite W_char; [|exact N1|exact N2| |].
             ++ rewrite IH, (unix_cons CR) by auto. now rewrite <- app_assoc.
             ++ intros _. destruct (Z.eq_dec y DQ) as [->|]; [cbn; discriminate|]. rewrite dq_plain by auto. cbn. exact N4.
             ++ intros Q. destruct (double_quotes (y :: s)); discriminate.
          -- rewrite W_char; [|exact N1|exact N2|congruence|].
             ++ rewrite IH, (unix_cons c) by congruence. now rewrite <- app_assoc.
             ++ intros Q. destruct (double_quotes (y :: s)); discriminate.
  Qed.
  Lemma row_text_cons c c2 r : row_text (c :: c2 :: r) = cell_text c ++ COMMA :: row_text (c2 :: r).
  Proof. reflexivity. Qed.
  Lemma W_cell c R done : cell_ok c -> fieldsW (cell_text c ++ COMMA :: R) done None = fieldsW R (done ++ [cell_value c]) None.
  Proof.
    destruct c as [s|s]; cbn [cell_ok cell_text cell_value].
    - intros (A & B & C). now apply W_plain.
    - intros _. cbn [app]. rewrite W_open, <- app_assoc. cbn [app]. rewrite W_quoted, W_quote_comma. reflexivity.
  Qed.
  Lemma W_last c e t done : cell_ok c -> end_ok [c] e -> closes e t -> fieldsW (cell_text c ++ end_text e ++ t) done None = ((done ++ [cell_value c], None), t).
  Proof.
    destruct c as [s|s]; cbn [cell_ok cell_text cell_value].
    - intros (A & B & C). now apply W_plain_end.
    - intros _ _ Cl. cbn [app]. rewrite W_open, <- app_assoc. cbn [app]. rewrite W_quoted, W_quote_end by exact Cl. reflexivity.
  Qed.
  Lemma end_ok_cons c c2 r e : end_ok (c :: c2 :: r) e -> end_ok (c2 :: r) e.
  Proof. destruct e; cbn [end_ok]; auto. Qed.
  Lemma end_ok_cons' c r e : r <> [] -> end_ok r e -> end_ok (c :: r) e.
  Proof. destruct r; [congruence|]. destruct e; cbn [end_ok]; auto. Qed.
  Lemma W_row r e t : closes e t -> r <> [] -> Forall cell_ok r -> end_ok r e -> forall done,
    fieldsW (row_text r ++ end_text e ++ t) done None = ((done ++ row_value r, None), t).
  Proof.
    intros Cl. induction r as [|c r IH]; intros N F O done; [congruence|]. inversion F as [|? ? Oc Fr]; subst. destruct r as [|c2 r].
    - now apply W_last.
    - rewrite row_text_cons, <- app_assoc. cbn [app]. rewrite W_cell by exact Oc. rewrite IH; [|discriminate|exact Fr|now apply end_ok_cons in O].
      cbn [row_value map]. now rewrite <- app_assoc.
  Qed.
  (** the first cells of a row *)
  Lemma W_cells r R : Forall cell_ok r -> forall done, fieldsW (cells_text r ++ R) done None = fieldsW R (done ++ row_value r) None.
  Proof.
    induction 1 as [|c r O F IH]; intros done; [cbn; now rewrite app_nil_r|]. cbn [cells_text flat_map]. rewrite <- !app_assoc.
    change ([COMMA] ++ flat_map (fun c0 => cell_text c0 ++ [COMMA]) r ++ R) with (COMMA :: (cells_text r ++ R)). rewrite W_cell, IH by exact O.
    cbn [row_value map]. now rewrite <- app_assoc.
  Qed.

  (** ** what is accepted is a row *)
  Lemma W_conv n : forall R, (length R <= n)%nat ->
    (forall done flds t, fieldsW R done None = ((flds, None), t) -> exists r e, R = row_text r ++ end_text e ++ t /\ r <> [] /\ Forall cell_ok r /\
       end_ok r e /\ closes e t /\ flds = done ++ row_value r) /\
    (forall done buf flds t, fieldsW R done (Some buf) = ((flds, None), t) -> exists s r e,
       R = double_quotes s ++ DQ :: (match r with [] => [] | _ => COMMA :: row_text r end) ++ end_text e ++ t /\ Forall cell_ok r /\
       end_ok r e /\ closes e t /\ flds = done ++ (buf ++ unix s) :: row_value r).
  Proof.
    induction n as [|n IH]; intros R L.
    { destruct R; [|cbn in L; lia]. split.
      - intros done flds t H. unfold fieldsW in H. rewrite view_nil in H. cbn in H. injection H as <- A <-.
        exists [Plain []], Nothing. split; [reflexivity|]. split; [discriminate|]. split; [repeat constructor; auto|]. split; [cbn; discriminate|].
        split; [right; split; [reflexivity|unfold at_end in A; destruct e0; congruence]|reflexivity].
      - intros done buf flds t H. unfold fieldsW in H. rewrite view_nil in H. cbn in H. destruct (at_end); discriminate. }
    split.
    - intros done flds t H. destruct R as [|c R]; [apply IH; [cbn; lia|exact H]|].
      destruct (Z.eq_dec c DQ) as [->|Nq].
      + rewrite W_open in H. cbn [length] in L. destruct (IH R ltac:(lia)) as (_ & IH2). apply IH2 in H as (s & r & e & -> & F & O & Cl & ->).
        exists (Quoted s :: r), e. split.
        * destruct r as [|c r]; cbn [row_text cell_text app]; rewrite <- ?app_assoc; cbn [app]; [reflexivity|]. rewrite <- ?app_assoc. reflexivity.
        * split; [discriminate|]. split; [constructor; [exact I|exact F]|]. split; [|split; [exact Cl|reflexivity]].
          destruct r; [destruct e; exact I|now apply end_ok_cons'].
      + destruct (view (c :: R)) as [[l er] t'] eqn:V. unfold fieldsW in H. rewrite V in H.
        assert (Hl : match l with x :: _ => x <> DQ | [] => True end).
        { destruct l as [|x l]; [exact I|]. intros ->. apply view_peel in V as (R' & E & _); [|discriminate]. injection E; congruence. }
        rewrite plain_step in H by exact Hl. pose proof (cut_spec COMMA l) as [Nc E]. destruct (cut COMMA l) as [f [rest|]]; cbn [fst snd] in *.
        * destruct (has DQ f) eqn:Hq; [discriminate|]. apply has_false in Hq. rewrite E in V.
          apply view_peels in V as (Nl & R1 & E1 & V1); [|left; discriminate]. apply view_peel in V1 as (R' & -> & V' & _); [|discriminate].
          assert (LR : (length R' <= n)%nat) by (assert (length (c :: R) = length (f ++ COMMA :: R')) by (now rewrite E1); rewrite app_length in *; cbn [length] in *; lia).
          rewrite (fields_W _ _ _ _ _ _ _ V') in H by (rewrite E, app_length; cbn [length]; lia).
          apply (IH R' LR) in H as (r & e & -> & Nr & F & O & Cl & ->). exists (Plain f :: r), e. split.
          -- rewrite E1. destruct r; [congruence|]. rewrite row_text_cons, <- app_assoc. reflexivity.
          -- split; [discriminate|]. split; [constructor; [cbn; auto|exact F]|]. split; [now apply end_ok_cons'|]. split; [exact Cl|].
             cbn [row_value map cell_value]. now rewrite <- app_assoc.
        * rewrite app_nil_r in E. subst f. destruct (has DQ (chop_lf l)) eqn:Hq; [discriminate|]. injection H as <- -> ->.
          apply has_false in Hq.
          assert (S : exists nl, l = chop_lf l ++ nl /\ is_nl nl = true /\ ~ In LF (chop_lf l)).
          { destruct l as [|x l0] using rev_ind; [exists []; cbn; auto|]. clear IHl0. destruct (Z.eq_dec x LF) as [->|Nx].
            - exists [LF]. rewrite chop_lf_snoc. split; [reflexivity|]. split; [reflexivity|]. apply view_peels in V as (A & _); [exact A|left; discriminate].
            - apply view_peels in V as (A & _); [|left; discriminate]. assert (B : ~ In LF (l0 ++ [x])) by (rewrite in_app_iff; intros [I|[I|[]]]; [tauto|congruence]).
              rewrite (chop_lf_id _ B). exists []. rewrite app_nil_r. auto. }
          destruct S as (nl & El & Hn & Nl). set (s := chop_lf l) in *. rewrite El in V. pose proof V as V0. apply view_peels in V as (_ & R' & E & V'); [|right; exact Nl].
          destruct (view_nl _ _ _ V' Hn) as (e & -> & Cl). exists [Plain s], e. split; [exact E|]. split; [discriminate|].
          split; [constructor; [|constructor]; cbn; split; [|auto]; intros I; apply Nc; rewrite El; apply in_or_app; now left|].
          split; [|split; [exact Cl|reflexivity]].
          (* the last byte is no CR that belongs to the line end *)
          rewrite E in V0. clear -V0 Nl Cl.
          assert (G : last s 0 = CR -> exists s', s = s' ++ [CR] /\ view (CR :: end_text e ++ t) = ((CR :: nl, None), t)).
          { destruct s as [|x s'] using rev_ind; [discriminate|]. clear IHs'. rewrite last_last. intros ->. exists s'. split; [reflexivity|].
            rewrite <- !app_assoc in V0. apply view_peels in V0 as (_ & R' & E & V'); [|left; discriminate]. apply app_inv_head in E. cbn [app] in E, V'. now rewrite E. }
          destruct e; cbn [end_ok last]; try exact I; intros Q; destruct (G Q) as (s' & _ & V'); [discriminate V'|].
          destruct Cl as [[Cl|Cl]|(-> & E0)]; try discriminate. unfold view, CsvText.read_line in V'. rewrite E0 in V'. discriminate V'.
    - intros done buf flds t H. destruct R as [|c R]; [apply IH; [cbn; lia|exact H]|]. cbn [length] in L.
      destruct (Z.eq_dec c DQ) as [->|Nq].
      + destruct R as [|d R].
        * rewrite (W_quote_other _ _ _ _ _ _ view_nil I) in H. cbn in H. injection H as <- A <-. exists [], [], Nothing.
          split; [reflexivity|]. split; [constructor|]. split; [exact I|]. split; [right; split; [reflexivity|unfold at_end in A; destruct e0; congruence]|]. now rewrite app_nil_r.
        * cbn [length] in L. destruct (Z.eq_dec d DQ) as [->|Nd]; [|destruct (Z.eq_dec d COMMA) as [->|Nd']].
          -- rewrite W_quote_quote in H. destruct (IH R ltac:(lia)) as (_ & IH2). apply IH2 in H as (s & r & e & -> & F & O & Cl & ->).
             exists (DQ :: s), r, e. split; [reflexivity|]. split; [exact F|]. split; [exact O|]. split; [exact Cl|]. rewrite unix_cons by discriminate. now rewrite <- app_assoc.
          -- rewrite W_quote_comma in H. apply (IH R ltac:(lia)) in H as (r & e & -> & Nr & F & O & Cl & ->).
             exists [], r, e. split; [destruct r; [congruence|reflexivity]|]. split; [exact F|]. split; [exact O|]. split; [exact Cl|]. rewrite app_nil_r, <- app_assoc. reflexivity.
          -- destruct (view (d :: R)) as [[l er] t'] eqn:V. rewrite (W_quote_other _ _ _ _ _ _ V) in H.
             ++ destruct (is_nl l) eqn:Hn; [|discriminate]. injection H as <- -> ->. destruct (view_nl _ _ _ V Hn) as (e & E & Cl).
                exists [], [], e. split; [cbn; now rewrite E|]. split; [constructor|]. split; [destruct e; exact I|]. split; [exact Cl|]. now rewrite app_nil_r.
             ++ destruct l as [|x l]; [exact I|]. destruct (Z.eq_dec x LF) as [->|]; [split; discriminate|]. apply view_peel in V as (R' & E & _); [|assumption]. injection E as <- _. auto.
      + assert (St : exists k R', k <> [] /\ c :: R = k ++ R' /\ fieldsW (c :: R) done (Some buf) = fieldsW R' done (Some (buf ++ unix k)) /\
             double_quotes k = k /\ (forall s, hd 0 s = hd 0 R' \/ s = [] -> unix (k ++ s) = unix k ++ unix s)).
        { destruct (Z.eq_dec c LF) as [->|Nl].
          - exists [LF], R. split; [discriminate|]. split; [reflexivity|]. split; [apply W_lf|]. split; [reflexivity|]. intros s _. cbn [app]. now rewrite unix_cons.
          - destruct (Z.eq_dec c CR) as [->|Ncr].
            + destruct R as [|d R]; [exfalso; unfold fieldsW, view, CsvText.read_line in H; cbn in H; destruct e0; cbn in H; discriminate|].
              destruct (Z.eq_dec d LF) as [->|Nd].
              * exists [CR; LF], R. split; [discriminate|]. split; [reflexivity|]. split; [apply W_crlf|]. split; [reflexivity|]. intros s _. cbn [app]. rewrite unix_crlf, unix_cons by discriminate. reflexivity.
              * exists [CR], (d :: R). split; [discriminate|]. split; [reflexivity|]. split; [apply W_char; auto; discriminate|]. split; [reflexivity|].
                intros s Hs. cbn [app]. apply unix_cons. intros _. destruct s as [|x s]; [exact I|]. destruct Hs as [Hs|]; [cbn in Hs; congruence|discriminate].
            + assert (E0 : R = [] -> e0 = EOF).
              { intros ->. unfold fieldsW in H. rewrite (view_cons c [] [] at_end []) in H; [|exact Nl|congruence|apply view_nil]. cbn [CsvText.read_fields cut] in H.
                apply Z.eqb_neq in Nq. rewrite Nq in H. unfold at_end in H. destruct e0; try discriminate H. }
              exists [c], R. split; [discriminate|]. split; [reflexivity|]. split; [apply W_char; auto; congruence|]. split; [cbn; apply Z.eqb_neq in Nq; now rewrite Nq|].
              intros s _. cbn [app]. apply unix_cons. congruence. }
        destruct St as (k & R' & Nk & E & EW & Dk & Uk). rewrite EW in H.
        assert (LR : (length R' <= n)%nat).
        { assert (Q : length (c :: R) = length (k ++ R')) by (now rewrite E). rewrite app_length in Q. destruct k; [congruence|]. cbn [length] in Q. lia. }
        apply (IH R' LR) in H as (s & r & e & ER & F & O & Cl & ->). exists (k ++ s), r, e. split.
        * rewrite E, ER. unfold double_quotes. rewrite flat_map_app. fold (double_quotes k). rewrite Dk, <- app_assoc. reflexivity.
        * split; [exact F|]. split; [exact O|]. split; [exact Cl|]. rewrite Uk; [now rewrite app_assoc|].
          destruct s as [|x s]; [auto|]. left. rewrite ER. rewrite dq_cons. destruct (Z.eqb_spec x DQ) as [->|]; reflexivity.
  Qed.
End Reader.
