(** lexString, lexBooleanNull and lex on the list iterator. *)
From Verif Require Import Base ReaderSpec Writer JsonLex JsonSim JsonSpec JsonLexProofs.
From Coq Require Import ZifyBool.
Open Scope Z_scope.

Definition hexd (c : Z) : option Z :=
  if (48 <=? c) && (c <=? 57) then Some (c - 48)
  else if (65 <=? c) && (c <=? 70) then Some (c - 55)
  else if (97 <=? c) && (c <=? 102) then Some (c - 87)
  else None.
Lemma hexd_spec c d : hexd c = Some d <-> hexdigit c d.
Proof.
  unfold hexd. split.
  - destruct ((48 <=? c) && (c <=? 57)) eqn:A; [|destruct ((65 <=? c) && (c <=? 70)) eqn:B; [|destruct ((97 <=? c) && (c <=? 102)) eqn:C; [|discriminate]]];
      intros H; inversion H; subst.
    + replace c with (48 + (c - 48)) at 1 by lia. constructor. lia.
    + replace c with (55 + (c - 55)) at 1 by lia. constructor. lia.
    + replace c with (87 + (c - 87)) at 1 by lia. apply hex_af. lia.
  - intros H. inversion H; subst; [replace ((48 <=? 48 + d) && (48 + d <=? 57)) with true by lia; f_equal; lia| |].
    + replace ((48 <=? 55 + d) && (55 + d <=? 57)) with false by lia. replace ((65 <=? 55 + d) && (55 + d <=? 70)) with true by lia. f_equal; lia.
    + replace ((48 <=? 87 + d) && (87 + d <=? 57)) with false by lia. replace ((65 <=? 87 + d) && (87 + d <=? 70)) with false by lia.
      replace ((97 <=? 87 + d) && (87 + d <=? 102)) with true by lia. f_equal; lia.
Qed.
Lemma hexdigit_range c d : hexdigit c d -> 0 <= d <= 15.
Proof. intros H; inversion H; subst; lia. Qed.
Lemma unit_range u n : unit_escape u n -> 0 <= n <= 65535.
Proof. intros H; inversion H as [c1 c2 c3 c4 d1 d2 d3 d4 A B C D]; subst. apply hexdigit_range in A, B, C, D. lia. Qed.

Section Str.
  Variable e : err.
  Notation nx := (list_nx (T := Z) e).
  Notation un := (list_un (T := Z)).

  Fixpoint phex (n : nat) (h : Z) (l : list Z) : option (Z * list Z) :=
    match n with
    | O => Some (h, l)
    | S n' => match l with
              | c :: r => match hexd c with Some d => phex n' (h * 16 + d) r | None => None end
              | [] => None
              end
    end.
  Lemma hex_eq n : forall h f l,
    match phex n h l with
    | Some (v, r) => read_hex nx n h f l = Done ((v, None), r)
    | None => exists e' r, read_hex nx n h f l = Done ((0, Some e'), r)
    end.
  Proof.
    induction n as [|n IH]; intros h f l; cbn [phex read_hex]; [reflexivity|].
    destruct l as [|c l]; cbn [list_nx obind]; [eauto|]. unfold hexd.
    destruct ((48 <=? c) && (c <=? 57)); [replace (h * 16 + c - 48) with (h * 16 + (c - 48)) by lia; apply IH|].
    destruct ((65 <=? c) && (c <=? 70)); [replace (h * 16 + c - 65 + 10) with (h * 16 + (c - 55)) by lia; apply IH|].
    destruct ((97 <=? c) && (c <=? 102)); [replace (h * 16 + c - 97 + 10) with (h * 16 + (c - 87)) by lia; apply IH|]. eauto.
  Qed.
  Lemma phex_some l v r : phex 4 0 l = Some (v, r) <-> exists u, unit_escape (92 :: 117 :: u) v /\ l = u ++ r.
  Proof.
    split.
    - cbn. destruct l as [|c1 l]; [discriminate|]. destruct (hexd c1) as [d1|] eqn:H1; [|discriminate].
      destruct l as [|c2 l]; [discriminate|]. destruct (hexd c2) as [d2|] eqn:H2; [|discriminate].
      destruct l as [|c3 l]; [discriminate|]. destruct (hexd c3) as [d3|] eqn:H3; [|discriminate].
      destruct l as [|c4 l]; [discriminate|]. destruct (hexd c4) as [d4|] eqn:H4; [|discriminate].
      intros H. injection H as Hv Hr. subst r. exists [c1; c2; c3; c4]. split; [|reflexivity].
      replace v with (((d1 * 16 + d2) * 16 + d3) * 16 + d4) by lia. constructor; apply hexd_spec; auto.
    - intros (u & H & ->). inversion H as [c1 c2 c3 c4 d1 d2 d3 d4 A B C D]; subst. apply hexd_spec in A, B, C, D.
      cbn. rewrite A, B, C, D. do 2 f_equal. 
  Qed.

  Definition puni (l : list Z) : option (Z * list Z) :=
    match phex 4 0 l with
    | None => None
    | Some (v, r) =>
        if is_surrogate v then
          match r with
          | c1 :: c2 :: r2 => if negb ((c1 =? 92) && (c2 =? 117)) then None else
              match phex 4 0 r2 with
              | None => None
              | Some (v2, r3) =>
                  if is_surrogate v2 then
                    if decode_rune v v2 =? 65533 then if decode_rune v2 v =? 65533 then None else Some (decode_rune v2 v, r3)
                    else Some (decode_rune v v2, r3)
                  else None
              end
          | _ => None
          end
        else Some (v, r)
    end.

  Ltac fin := try (do 2 eexists; reflexivity).

  Lemma uni_eq f l :
    match puni l with
    | Some (v, r) => lex_unicode nx f l = Done ((v, None), r)
    | None => exists e' r, lex_unicode nx f l = Done ((0, Some e'), r)
    end.
  Proof.
    unfold puni, lex_unicode. pose proof (hex_eq 4 0 f l) as H. destruct (phex 4 0 l) as [[v r]|].
    2:{ destruct H as (e' & r & ->). cbn. fin. }
    rewrite H. cbn [obind]. destruct (is_surrogate v) eqn:SV; [|reflexivity].
    destruct r as [|c r]; [cbn; fin|]. cbn [list_nx obind].
    destruct (c =? 92); cbn [negb andb]. 2:{ destruct r; fin. }
    destruct r as [|c2 r]; [cbn; fin|]. cbn [list_nx obind].
    destruct (c2 =? 117); cbn [negb]; [|fin]. pose proof (hex_eq 4 0 f r) as H2. destruct (phex 4 0 r) as [[v2 r2]|].
    2:{ destruct H2 as (e' & r' & ->). cbn. fin. }
    rewrite H2. cbn [obind]. destruct (is_surrogate v2); cbn [negb]; fin. cbv zeta.
    destruct (decode_rune v v2 =? 65533); [|reflexivity]. destruct (decode_rune v2 v =? 65533); [fin|reflexivity].
  Qed.

  Lemma surr_cases v : is_surrogate v = true <-> high_surrogate v \/ low_surrogate v.
  Proof. unfold is_surrogate, high_surrogate, low_surrogate. lia. Qed.
  Lemma decode_pair v1 v2 : high_surrogate v1 -> low_surrogate v2 -> decode_rune v1 v2 = pair_value v1 v2.
  Proof. unfold high_surrogate, low_surrogate, decode_rune, pair_value. intros A B.
    replace ((55296 <=? v1) && (v1 <? 56320) && (56320 <=? v2) && (v2 <? 57344)) with true by lia. lia. Qed.
  Lemma decode_not v1 v2 : ~ (high_surrogate v1 /\ low_surrogate v2) -> decode_rune v1 v2 = 65533.
  Proof. unfold high_surrogate, low_surrogate, decode_rune. intros A.
    replace ((55296 <=? v1) && (v1 <? 56320) && (56320 <=? v2) && (v2 <? 57344)) with false by lia. auto. Qed.
  Lemma pair_big v1 v2 : high_surrogate v1 -> low_surrogate v2 -> 65536 <= pair_value v1 v2 <= 1114111.
  Proof. unfold high_surrogate, low_surrogate, pair_value. lia. Qed.

  (** what follows a backslash and u *)
  Inductive uni : list Z -> Z -> Prop :=
  | uni_one u v : unit_escape (92 :: 117 :: u) v -> ~ high_surrogate v -> ~ low_surrogate v -> uni u v
  | uni_pair u1 v1 u2 v2 : unit_escape (92 :: 117 :: u1) v1 -> unit_escape (92 :: 117 :: u2) v2 -> high_surrogate v1 -> low_surrogate v2 ->
      uni (u1 ++ 92 :: 117 :: u2) (pair_value v1 v2)
  | uni_rev u1 v1 u2 v2 : unit_escape (92 :: 117 :: u1) v1 -> unit_escape (92 :: 117 :: u2) v2 -> low_surrogate v1 -> high_surrogate v2 ->
      uni (u1 ++ 92 :: 117 :: u2) (pair_value v2 v1).

  Lemma puni_some l v r : puni l = Some (v, r) <-> exists u, uni u v /\ l = u ++ r.
  Proof.
    unfold puni. split.
    - destruct (phex 4 0 l) as [[v1 r1]|] eqn:P1; [|discriminate]. apply phex_some in P1 as (u1 & U1 & ->).
      destruct (is_surrogate v1) eqn:S1.
      + destruct r1 as [|c [|c2 r1]]; [discriminate..|]. destruct ((c =? 92) && (c2 =? 117)) eqn:CC; cbn [negb]; [|discriminate].
        assert (c = 92 /\ c2 = 117) as [-> ->] by lia. clear CC.
        destruct (phex 4 0 r1) as [[v2 r2]|] eqn:P2; [|discriminate]. apply phex_some in P2 as (u2 & U2 & ->).
        destruct (is_surrogate v2) eqn:S2; [|discriminate]. apply surr_cases in S1, S2.
        destruct S1 as [S1|S1], S2 as [S2|S2].
        * rewrite !decode_not; [discriminate|..]; unfold high_surrogate, low_surrogate in *; lia.
        * rewrite decode_pair by auto. pose proof (pair_big _ _ S1 S2). replace (pair_value v1 v2 =? 65533) with false by lia.
          intros X; inversion X; subst. exists (u1 ++ 92 :: 117 :: u2). split; [apply uni_pair; auto|]. rewrite <- app_assoc. reflexivity.
        * rewrite decode_not by (unfold high_surrogate, low_surrogate in *; lia). cbn [Z.eqb Pos.eqb].
          rewrite decode_pair by auto. pose proof (pair_big _ _ S2 S1). replace (pair_value v2 v1 =? 65533) with false by lia.
          intros X; inversion X; subst. exists (u1 ++ 92 :: 117 :: u2). split; [apply uni_rev; auto|]. rewrite <- app_assoc. reflexivity.
        * rewrite !decode_not; [discriminate|..]; unfold high_surrogate, low_surrogate in *; lia.
      + intros X; inversion X; subst. exists u1. split; auto. assert (~ (high_surrogate v \/ low_surrogate v)) by (rewrite <- surr_cases; congruence).
        constructor; auto.
    - intros (u & U & ->). inversion U as [u0 v0 UE NH NL|u1 v1 u2 v2 E1 E2 A B|u1 v1 u2 v2 E1 E2 A B]; subst.
      + assert (P : phex 4 0 (u ++ r) = Some (v, r)) by (apply phex_some; eauto). rewrite P.
        replace (is_surrogate v) with false; auto. symmetry. apply not_true_iff_false. rewrite surr_cases. tauto.
      + rewrite <- app_assoc. assert (P : phex 4 0 (u1 ++ (92 :: 117 :: u2) ++ r) = Some (v1, (92 :: 117 :: u2) ++ r)) by (apply phex_some; eauto). rewrite P.
        replace (is_surrogate v1) with true by (symmetry; apply surr_cases; auto). cbn [app Z.eqb Pos.eqb andb negb].
        assert (P2 : phex 4 0 (u2 ++ r) = Some (v2, r)) by (apply phex_some; eauto). rewrite P2.
        replace (is_surrogate v2) with true by (symmetry; apply surr_cases; auto). rewrite decode_pair by auto.
        pose proof (pair_big _ _ A B). replace (pair_value v1 v2 =? 65533) with false by lia. reflexivity.
      + rewrite <- app_assoc. assert (P : phex 4 0 (u1 ++ (92 :: 117 :: u2) ++ r) = Some (v1, (92 :: 117 :: u2) ++ r)) by (apply phex_some; eauto). rewrite P.
        replace (is_surrogate v1) with true by (symmetry; apply surr_cases; auto). cbn [app Z.eqb Pos.eqb andb negb].
        assert (P2 : phex 4 0 (u2 ++ r) = Some (v2, r)) by (apply phex_some; eauto). rewrite P2.
        replace (is_surrogate v2) with true by (symmetry; apply surr_cases; auto).
        rewrite (decode_not v1 v2) by (unfold high_surrogate, low_surrogate in *; lia). cbn [Z.eqb Pos.eqb].
        rewrite decode_pair by auto.
        pose proof (pair_big _ _ B A). replace (pair_value v2 v1 =? 65533) with false by lia. reflexivity.
  Qed.

  (** one turn of the loop *)
  Inductive turn := PEnd (r : list Z) | PChar (c : Z) (r : list Z) | PErr.
  Definition close (c : Z) (r : list Z) : turn := if c =? 34 then PEnd r else PChar c r.
  Definition simple (c : Z) : option Z :=
    if c =? 92 then Some 92 else if c =? 47 then Some 47 else if c =? 98 then Some 8 else if c =? 102 then Some 12
    else if c =? 110 then Some 10 else if c =? 114 then Some 13 else if c =? 116 then Some 9 else None.
  Definition pturn (l : list Z) : turn :=
    match l with
    | [] => PErr
    | c :: r =>
        if c <? 32 then PErr
        else if c =? 92 then
          match r with
          | [] => PErr
          | c2 :: r2 =>
              if c2 =? 34 then PChar 34 r2
              else match simple c2 with
                   | Some v => close v r2
                   | None => if c2 =? 117 then match puni r2 with Some (v, r3) => close v r3 | None => PErr end else PErr
                   end
          end
        else close c r
    end.
  Lemma simple_not_u c : simple c <> None -> c <> 117 /\ c <> 34.
  Proof. unfold simple. destruct (Z.eq_dec c 117) as [->|]; [cbn; congruence|]. destruct (Z.eq_dec c 34) as [->|]; [cbn; congruence|]. auto. Qed.
  Lemma escape_eq f c l :
    match simple c with
    | Some v => lex_escape nx c f l = Done ((v, None), l) /\ v <> 34
    | None => if c =? 117 then lex_escape nx c f l = lex_unicode nx f l else exists e', lex_escape nx c f l = Done ((0, Some e'), l)
    end.
  Proof.
    unfold simple, lex_escape. destruct (c =? 92); [split; [reflexivity|lia]|]. destruct (c =? 47); [split; [reflexivity|lia]|].
    destruct (c =? 98); [split; [reflexivity|lia]|]. destruct (c =? 102); [split; [reflexivity|lia]|]. destruct (c =? 110); [split; [reflexivity|lia]|].
    destruct (c =? 114); [split; [reflexivity|lia]|]. destruct (c =? 116); [split; [reflexivity|lia]|]. destruct (c =? 117); eauto.
  Qed.

  Lemma turn_eq f str l :
    match pturn l with
    | PEnd r => str_loop nx (S f) str l = Done ((mkTok tString (string_of_runes str), None), r)
    | PChar c r => str_loop nx (S f) str l = str_loop nx f (str ++ [c]) r
    | PErr => exists e' r, str_loop nx (S f) str l = Done ((zt, Some e'), r)
    end.
  Proof.
    destruct l as [|c l]; cbn [pturn str_loop list_nx obind]; [fin|]. destruct (c <? 32); [fin|]. destruct (c =? 92) eqn:Ec.
    - destruct l as [|c2 l]; cbn [list_nx obind]; [fin|]. destruct (c2 =? 34) eqn:E34; [reflexivity|].
      pose proof (escape_eq f c2 l) as H. destruct (simple c2) as [v|].
      + destruct H as [-> NV]. cbn [obind]. unfold close. replace (v =? 34) with false by lia. reflexivity.
      + destruct (c2 =? 117) eqn:Eu.
        * rewrite H. pose proof (uni_eq f l) as U. destruct (puni l) as [[v r]|].
          -- rewrite U. cbn [obind]. unfold close. destruct (v =? 34); reflexivity.
          -- destruct U as (e' & r & ->). cbn. fin.
        * destruct H as (e' & ->). cbn. fin.
    - unfold close. destruct (c =? 34); reflexivity.
  Qed.

  Lemma simple_spec c v : simple c = Some v <-> spelled [92; c] v /\ c <> 34.
  Proof.
    unfold simple. split.
    - repeat match goal with |- (if ?b then _ else _) = _ -> _ => destruct b eqn:? end; intros H; inversion H; subst;
        match goal with X : (c =? _) = true |- _ => apply Z.eqb_eq in X; subst c end; (split; [|lia]); constructor.
    - intros [H N]. inversion H as [| | | | | | | | |u n U|u1 n1 u2 n2 U1 U2 HS1 HS2 HU]; subst; try reflexivity; try congruence.
      + inversion U.
      + inversion U1; subst; cbn in HU; inversion HU.
  Qed.
  Lemma turn_char l c r : pturn l = PChar c r <-> exists u, lex_spelled u c /\ l = u ++ r.
  Proof.
    split.
    - destruct l as [|c1 l]; cbn; [discriminate|]. destruct (c1 <? 32) eqn:E32; [discriminate|]. destruct (c1 =? 92) eqn:E92.
      + apply Z.eqb_eq in E92. subst c1. destruct l as [|c2 l]; [discriminate|]. destruct (c2 =? 34) eqn:E34.
        { intros H; inversion H; subst. apply Z.eqb_eq in E34. subst c2. exists [92; 34]. split; auto. constructor; auto. constructor. }
        destruct (simple c2) as [v|] eqn:Si.
        * unfold close. destruct (v =? 34) eqn:V; [discriminate|]. intros H; inversion H; subst. exists [92; c2]. split; auto.
          apply simple_spec in Si as [Si _]. constructor; auto. lia.
        * destruct (c2 =? 117) eqn:Eu; [|discriminate]. apply Z.eqb_eq in Eu. subst c2. destruct (puni l) as [[v r']|] eqn:P; [|discriminate].
          unfold close. destruct (v =? 34) eqn:V; [discriminate|]. intros H; inversion H; subst. apply puni_some in P as (u & U & ->).
          exists (92 :: 117 :: u). split; auto. inversion U as [u0 v0 UE NH NL|u1 v1 u2 v2 E1 E2 A B|u1 v1 u2 v2 E1 E2 A B]; subst.
          -- apply ls_standard; [apply sp_unit; auto|lia].
          -- apply ls_standard; [|lia]. apply (sp_pair (92 :: 117 :: u1) v1 (92 :: 117 :: u2) v2); auto.
          -- apply (ls_reversed (92 :: 117 :: u1) v1 (92 :: 117 :: u2) v2); auto.
      + unfold close. destruct (c1 =? 34) eqn:E34; [discriminate|]. intros H; inversion H; subst. exists [c]. split; auto. constructor; [constructor|]; lia.
    - intros (u & U & ->). inversion U as [u0 c0 SP Q|u1 n1 u2 n2 E1 E2 A B]; subst.
      + inversion SP as [c0 A B C| | | | | | | | |u0 n UE NH NL|u1 n1 u2 n2 E1 E2 A B]; subst; try reflexivity.
        * cbn. replace (c <? 32) with false by lia. replace (c =? 92) with false by lia. unfold close. replace (c =? 34) with false by lia. reflexivity.
        * assert (NC : c <> 34). { intros ->. specialize (Q eq_refl). subst u. inversion UE. }
          inversion UE as [c1 c2 c3 c4 d1 d2 d3 d4 H1 H2 H3 H4]; subst u. cbn [app pturn Z.ltb Z.compare Z.eqb Pos.eqb simple Pos.compare Pos.compare_cont].
          assert (P : puni ([c1; c2; c3; c4] ++ r) = Some (c, r)). { apply puni_some. exists [c1; c2; c3; c4]. split; auto. subst. constructor; auto. }
          cbn [app] in P. rewrite P. unfold close. replace (c =? 34) with false by lia. congruence.
        * inversion E1 as [c1 c2 c3 c4 d1 d2 d3 d4 H1 H2 H3 H4 X1 X2]; subst u1. inversion E2 as [b1 b2 b3 b4 f1 f2 f3 f4 K1 K2 K3 K4 Y1 Y2]; subst u2.
          cbn [app pturn Z.ltb Z.compare Z.eqb Pos.eqb simple Pos.compare Pos.compare_cont].
          assert (P : puni (([c1; c2; c3; c4] ++ 92 :: 117 :: [b1; b2; b3; b4]) ++ r) = Some (pair_value n1 n2, r)).
          { apply puni_some. eexists. split; [|reflexivity]. subst. apply uni_pair; auto. }
          cbn [app] in P. rewrite P. unfold close. pose proof (pair_big _ _ A B). replace (pair_value n1 n2 =? 34) with false by lia. congruence.
      + inversion E1 as [c1 c2 c3 c4 d1 d2 d3 d4 H1 H2 H3 H4 X1 X2]; subst u1. inversion E2 as [b1 b2 b3 b4 f1 f2 f3 f4 K1 K2 K3 K4 Y1 Y2]; subst u2.
        cbn [app pturn Z.ltb Z.compare Z.eqb Pos.eqb simple Pos.compare Pos.compare_cont].
        assert (P : puni (([c1; c2; c3; c4] ++ 92 :: 117 :: [b1; b2; b3; b4]) ++ r) = Some (pair_value n2 n1, r)).
        { apply puni_some. eexists. split; [|reflexivity]. subst. apply uni_rev; auto. }
        cbn [app] in P. rewrite P. unfold close. pose proof (pair_big _ _ B A). replace (pair_value n2 n1 =? 34) with false by lia. congruence.
  Qed.
  Lemma turn_end l r : pturn l = PEnd r <-> exists t, lex_end t /\ l = t ++ r.
  Proof.
    split.
    - destruct l as [|c1 l]; cbn; [discriminate|]. destruct (c1 <? 32) eqn:E32; [discriminate|]. destruct (c1 =? 92) eqn:E92.
      + apply Z.eqb_eq in E92. subst c1. destruct l as [|c2 l]; [discriminate|]. destruct (c2 =? 34) eqn:E34; [discriminate|].
        destruct (simple c2) as [v|] eqn:Si.
        * unfold close. pose proof (escape_eq 0 c2 l) as H. rewrite Si in H. destruct H as [_ H]. replace (v =? 34) with false by lia. discriminate.
        * destruct (c2 =? 117) eqn:Eu; [|discriminate]. apply Z.eqb_eq in Eu. subst c2. destruct (puni l) as [[v r']|] eqn:P; [|discriminate].
          unfold close. destruct (v =? 34) eqn:V; [|discriminate]. apply Z.eqb_eq in V. subst v. intros H; inversion H; subst.
          apply puni_some in P as (u & U & ->). exists (92 :: 117 :: u). split; auto.
          inversion U as [u0 v0 UE NH NL|u1 v1 u2 v2 E1 E2 A B X Y|u1 v1 u2 v2 E1 E2 A B X Y]; subst.
          -- apply le_unit; auto.
          -- pose proof (pair_big _ _ A B). lia.
          -- pose proof (pair_big _ _ B A). lia.
      + unfold close. destruct (c1 =? 34) eqn:E34; [|discriminate]. apply Z.eqb_eq in E34. subst. intros H; inversion H; subst. exists [34]. split; auto. constructor.
    - intros (t & T & ->). destruct T as [|u UE]; [reflexivity|].
      inversion UE as [c1 c2 c3 c4 d1 d2 d3 d4 H1 H2 H3 H4 X1 X2]; subst u. cbn [app pturn Z.ltb Z.compare Z.eqb Pos.eqb simple Pos.compare Pos.compare_cont].
      assert (P : puni ([c1; c2; c3; c4] ++ r) = Some (34, r)).
      { apply puni_some. exists [c1; c2; c3; c4]. split; auto. rewrite <- X2. constructor; [rewrite X2; auto|..]; unfold high_surrogate, low_surrogate; lia. }
      cbn [app] in P. rewrite P. reflexivity.
  Qed.

  Lemma spelled_len u c : lex_spelled u c -> (0 < length u)%nat.
  Proof.
    intros H. destruct H as [u c SP Q|u1 n1 u2 n2 E1 E2 A B].
    - destruct SP as [c0 A B C| | | | | | | | |u0 n UE NH NL|u1 n1 u2 n2 E1 E2 A B]; cbn; try lia; [destruct UE|destruct E1]; cbn; lia.
    - destruct E1; cbn; lia.
  Qed.

  (** the whole loop *)
  Lemma str_loop_ok parts s t r : Forall2 lex_spelled parts s -> lex_end t ->
    forall f str, (length parts < f)%nat ->
    str_loop nx f str (concat parts ++ t ++ r) = Done ((mkTok tString (string_of_runes (str ++ s)), None), r).
  Proof.
    intros F T. induction F as [|u c parts s U F IH]; intros [|f] str L; cbn in L; try lia.
    - pose proof (turn_eq f str (concat [] ++ t ++ r)) as H. cbn [concat app] in *.
      assert (P : pturn (t ++ r) = PEnd r) by (apply turn_end; eauto). rewrite P in H. rewrite H, app_nil_r. reflexivity.
    - pose proof (turn_eq f str (concat (u :: parts) ++ t ++ r)) as H. cbn [concat] in *. rewrite <- app_assoc in *.
      assert (P : pturn (u ++ concat parts ++ t ++ r) = PChar c (concat parts ++ t ++ r)) by (apply turn_char; eauto). rewrite P in H.
      rewrite H, IH by lia. rewrite <- app_assoc. reflexivity.
  Qed.
  Lemma str_loop_total f : forall str l, (length l < f)%nat ->
    (exists parts s t r, Forall2 lex_spelled parts s /\ lex_end t /\ l = concat parts ++ t ++ r) \/
    exists e' r, str_loop nx f str l = Done ((zt, Some e'), r).
  Proof.
    induction f as [|f IH]; intros str l L; [lia|]. pose proof (turn_eq f str l) as H. destruct (pturn l) as [r|c r|] eqn:P.
    - left. apply turn_end in P as (t & T & ->). exists [], [], t, r. repeat split; auto.
    - apply turn_char in P as (u & U & ->). pose proof (spelled_len _ _ U). rewrite app_length in L.
      destruct (IH (str ++ [c]) r ltac:(lia)) as [(parts & s & t & r' & F & T & ->)|(e' & r' & E)].
      + left. exists (u :: parts), (c :: s), t, r'. repeat split; auto. cbn. rewrite <- app_assoc. reflexivity.
      + right. exists e', r'. rewrite H. exact E.
    - right. exact H.
  Qed.
  Lemma str_loop_out f : forall str l, (length l < f)%nat -> exists o r, str_loop nx f str l = Done (o, r).
  Proof.
    intros str l L. destruct (str_loop_total f str l L) as [(parts & s & t & r & F & T & ->)|(e' & r & ->)]; eauto.
    rewrite (str_loop_ok parts s t r); eauto. assert (length parts <= length (concat parts))%nat.
    { clear -F. induction F as [|u c parts s U F IH]; cbn; [lia|]. rewrite app_length. pose proof (spelled_len _ _ U). lia. }
    rewrite app_length in L. lia.
  Qed.
End Str.
