(** Proofs about path.Clean: it computes the normal form of the parts. *)
From Coq Require Import ZArith List Bool Lia.
From Verif Require Import Base Path PathSpec.
Import ListNotations.
Open Scope Z_scope.

(** ** The normal form *)
(** what a relative path does to the current directory: first up [k] directories, then down the names, latest first *)
Notation loc := (nat * list (list Z))%type.
Definition norm_step (rt : bool) (l : loc) (w : list Z) : loc :=
  let '(k, ns) := l in
  if list_eq_dec Z.eq_dec w [] then l
  else if list_eq_dec Z.eq_dec w dot then l
  else if list_eq_dec Z.eq_dec w dotdot then match ns with _ :: ns => (k, ns) | [] => ((if rt then k else S k), []) end
  else (k, w :: ns).
Definition norm (p : list Z) : loc := fold_left (norm_step (rooted p)) (parts p) (0%nat, []).

(** the text of parts *)
Fixpoint join (ws : list (list Z)) : list Z :=
  match ws with [] => [] | [w] => w | w :: ws => w ++ 47 :: join ws end.
Definition body (rt : bool) (l : loc) : list Z :=
  (if rt then [47] else []) ++ join (repeat dotdot (fst l) ++ rev (snd l)).

Definition noslash (w : list Z) : Prop := Forall (fun c => c <> 47) w.
Definition okname (w : list Z) : Prop := name w /\ noslash w.
Definition okloc (rt : bool) (l : loc) : Prop := (rt = true -> fst l = 0%nat) /\ Forall okname (snd l).

Lemma parts_nonempty p : parts p <> [].
Proof. destruct p as [|c r]; cbn; [discriminate|]. destruct (c =? 47); [discriminate|]. destruct (parts r); discriminate. Qed.
Lemma parts_noslash p : Forall noslash (parts p).
Proof.
  induction p as [|c r IH]; cbn [parts]; [repeat constructor|]. destruct (Z.eqb_spec c 47); [constructor; [constructor|exact IH]|].
  destruct (parts r) as [|w ws]; [repeat constructor; auto|]. inversion IH; subst. constructor; [constructor; auto|auto].
Qed.
Lemma parts_app w r : noslash w -> parts (w ++ r) = match parts r with x :: xs => (w ++ x) :: xs | [] => [] end.
Proof.
  induction 1 as [|c w H _ IH]; cbn [app parts].
  - destruct (parts r) eqn:E; [destruct (parts_nonempty _ E)|reflexivity].
  - rewrite (proj2 (Z.eqb_neq c 47) H), IH. destruct (parts r) eqn:E; [destruct (parts_nonempty _ E)|reflexivity].
Qed.
Lemma parts_slash w r : noslash w -> parts (w ++ 47 :: r) = w :: parts r.
Proof. intros H. rewrite (parts_app w _ H). cbn. rewrite app_nil_r. reflexivity. Qed.
Lemma parts_one w : noslash w -> parts w = [w].
Proof. intros H. rewrite <- (app_nil_r w), (parts_app w [] H). cbn. rewrite app_nil_r. reflexivity. Qed.
Lemma parts_join ws : ws <> [] -> Forall noslash ws -> parts (join ws) = ws.
Proof.
  induction ws as [|w ws IH]; intros Ne F; [congruence|]. inversion F; subst. destruct ws as [|x xs]; [apply parts_one; assumption|].
  change (join (w :: x :: xs)) with (w ++ 47 :: join (x :: xs)). rewrite parts_slash by assumption. f_equal. apply IH; [discriminate|assumption].
Qed.
Lemma join_parts p : join (parts p) = p.
Proof.
  induction p as [|c r IH]; [reflexivity|]. cbn [parts]. destruct (Z.eqb_spec c 47) as [->|N].
  - destruct (parts r) eqn:E; [destruct (parts_nonempty _ E)|]. change (47 :: join (l :: l0) = 47 :: r). rewrite IH. reflexivity.
  - destruct (parts r) as [|w ws] eqn:E; [destruct (parts_nonempty _ E)|]. destruct ws; cbn in *; rewrite <- IH; reflexivity.
Qed.

(** ** The loop *)
Lemma join_snoc ws w : ws <> [] -> join (ws ++ [w]) = join ws ++ 47 :: w.
Proof.
  induction ws as [|x xs IH]; intros Ne; [congruence|]. destruct xs as [|y ys]; [reflexivity|].
  change (x ++ 47 :: join ((y :: ys) ++ [w]) = (x ++ 47 :: join (y :: ys)) ++ 47 :: w). rewrite IH by discriminate. rewrite <- app_assoc. reflexivity.
Qed.
Definition base (rt : bool) (k : nat) : nat := length (body rt (k, [])).

Lemma body_down rt k w ns :
  body rt (k, w :: ns) =
  body rt (k, ns) ++ (if (match k, ns with O, [] => true | _, _ => false end) then [] else [47]) ++ w.
Proof.
  unfold body. cbn [fst snd rev]. rewrite app_assoc. destruct (repeat dotdot k ++ rev ns) as [|x xs] eqn:E.
  - apply app_eq_nil in E. destruct E as [E1 E2]. destruct k; [|discriminate]. destruct ns; [|apply app_eq_nil in E2; destruct E2; discriminate].
    cbn. rewrite app_nil_r. reflexivity.
  - rewrite (join_snoc (x :: xs) w) by discriminate. destruct k as [|k]; [destruct ns as [|n ns]; [discriminate|]|]; rewrite <- !app_assoc; reflexivity.
Qed.
Lemma body_up rt k : rt = false -> body rt (S k, []) = body rt (k, []) ++ (match k with O => [] | _ => [47] end) ++ dotdot.
Proof.
  intros ->. unfold body. cbn [fst snd rev app]. rewrite !app_nil_r. replace (repeat dotdot (S k)) with (repeat dotdot k ++ [dotdot]).
  - destruct k; [reflexivity|]. rewrite join_snoc by discriminate. reflexivity.
  - induction k; [reflexivity|]. cbn [repeat app] in *. f_equal. exact IHk.
Qed.
Lemma body_empty rt k ns : okloc rt (k, ns) -> (body rt (k, ns) = if rt then [47] else []) -> k = 0%nat /\ ns = [].
Proof.
  intros [Hk F] E. destruct ns as [|w ns].
  - destruct k; [auto|]. destruct rt; [specialize (Hk eq_refl); discriminate|]. rewrite body_up in E by reflexivity.
    apply app_eq_nil in E. destruct E as [_ E]. apply app_eq_nil in E. destruct E as [_ E]. discriminate.
  - exfalso. rewrite body_down in E. inversion F as [|? ? [[Nw _] _] _]; subst. unfold body in E. destruct rt; cbn [app] in E.
    + injection E as E. apply app_eq_nil in E. destruct E as [_ E]. apply app_eq_nil in E. destruct E; congruence.
    + apply app_eq_nil in E. destruct E as [_ E]. apply app_eq_nil in E. destruct E; congruence.
Qed.
Lemma body_length rt k ns : (base rt k <= length (body rt (k, ns)))%nat.
Proof. induction ns as [|w ns IH]; [reflexivity|]. rewrite body_down, app_length. lia. Qed.
Lemma body_length_pos rt k w ns : okname w -> (base rt k < length (body rt (k, w :: ns)))%nat.
Proof. intros [[N _] _]. pose proof (body_length rt k ns). rewrite body_down, !app_length. destruct w; [congruence|cbn [length]; lia]. Qed.

Lemma backtrack_name d w out : noslash w -> (d <= length out)%nat -> w <> [] -> (length out = d \/ exists o, out = 47 :: o /\ (d <= length o)%nat) ->
  backtrack d (rev w ++ out) = match out with [] => [] | c :: o => if (length out =? d)%nat then out else o end.
Proof.
  intros H. rewrite <- (rev_involutive w) in H. remember (rev w) as v eqn:V. assert (Hv : Forall (fun c => c <> 47) v).
  { apply Forall_forall. intros x I. apply (proj1 (Forall_forall _ _) H). apply in_rev in I. exact I. }
  clear H. intros L Nw C. assert (Nv : v <> []) by (subst v; intros E; apply (f_equal (@rev Z)) in E; rewrite rev_involutive in E; auto).
  clear V Nw w. induction Hv as [|c v Hc _ IH]; [congruence|]. cbn [app backtrack].
  destruct v as [|c2 v].
  - cbn [app]. destruct C as [E|(o & -> & Lo)].
    + rewrite E, Nat.ltb_irrefl. cbn [andb]. destruct out; [reflexivity|]. rewrite Nat.eqb_refl. reflexivity.
    + cbn [length] in *. replace (d <? S (length o))%nat with true by (symmetry; apply Nat.ltb_lt; lia).
      rewrite (proj2 (Z.eqb_neq c 47) Hc). cbn [andb negb backtrack]. replace (S (length o) =? d)%nat with false by (symmetry; apply Nat.eqb_neq; lia).
      change (47 =? 47) with true. cbn [negb]. rewrite andb_false_r. reflexivity.
  - replace (d <? length ((c2 :: v) ++ out))%nat with true by (symmetry; apply Nat.ltb_lt; cbn [app length]; rewrite app_length; lia).
    rewrite (proj2 (Z.eqb_neq c 47) Hc). cbn [andb negb]. apply IH. discriminate.
Qed.
Lemma backtrack_body rt k w ns : okloc rt (k, w :: ns) -> backtrack (base rt k) (rev (body rt (k, w :: ns))) = rev (body rt (k, ns)).
Proof.
  intros [Hk F]. inversion F as [|? ? [[N0 _] Nw] F']; subst. rewrite body_down, !rev_app_distr, <- app_assoc.
  pose proof (body_length rt k ns) as L.
  rewrite backtrack_name; [|exact Nw| |exact N0|].
  - destruct k as [|k]; [destruct ns as [|n ns]|]; cbn [rev app].
    + assert (E : length (rev (body rt (0%nat, []))) = base rt 0) by (rewrite rev_length; reflexivity).
      destruct (rev (body rt (0%nat, []))); [reflexivity|]. rewrite E, Nat.eqb_refl. reflexivity.
    + replace (length _ =? _)%nat with false; [reflexivity|]. symmetry. apply Nat.eqb_neq. cbn [length]. rewrite rev_length. lia.
    + replace (length _ =? _)%nat with false; [reflexivity|]. symmetry. apply Nat.eqb_neq. cbn [length]. rewrite rev_length. lia.
  - rewrite app_length, !rev_length. lia.
  - destruct k as [|k]; [destruct ns as [|n ns]|]; cbn [rev app].
    + left. rewrite rev_length. reflexivity.
    + right. eexists. split; [reflexivity|]. rewrite rev_length. exact L.
    + right. eexists. split; [reflexivity|]. rewrite rev_length. exact L.
Qed.
Lemma copy_name_ok w r out : noslash w -> ends r = true -> copy_name out (w ++ r) = (rev w ++ out, r).
Proof.
  intros H E. revert out. induction H as [|c w N _ IH]; intros out; cbn [app copy_name].
  - destruct r as [|c r]; [reflexivity|]. cbn in E. cbn. rewrite E. reflexivity.
  - rewrite (proj2 (Z.eqb_neq c 47) N), IH. cbn [rev]. rewrite <- app_assoc. reflexivity.
Qed.
(** the first part of what is left *)
Lemma first_part rest : exists w r, rest = w ++ r /\ noslash w /\ ends r = true /\ (r = [] -> parts rest = [w]) /\ (forall r', r = 47 :: r' -> parts rest = w :: parts r').
Proof.
  induction rest as [|c rest IH].
  - exists [], []. repeat split; [constructor|discriminate].
  - destruct (Z.eq_dec c 47) as [->|N].
    + exists [], (47 :: rest). repeat split; [constructor|discriminate|]. intros r' E. injection E as <-. reflexivity.
    + destruct IH as (w & r & -> & H & E & A & B). exists (c :: w), r. split; [reflexivity|]. split; [constructor; assumption|]. split; [exact E|].
      cbn [app parts]. rewrite (proj2 (Z.eqb_neq c 47) N). split; [intros ->; rewrite (A eq_refl); reflexivity|intros r' ->; rewrite (B r' eq_refl); reflexivity].
Qed.
Lemma ends_cases r : ends r = true -> r = [] \/ exists r', r = 47 :: r'.
Proof. destruct r as [|c r]; [auto|]. cbn. intros E. apply Z.eqb_eq in E. subst. eauto. Qed.

Lemma norm_step_ok rt l w : okloc rt l -> noslash w -> okloc rt (norm_step rt l w).
Proof.
  destruct l as [k ns]. intros [Hk F] H. unfold norm_step. cbn [fst snd] in *.
  destruct (list_eq_dec Z.eq_dec w []); [split; assumption|]. destruct (list_eq_dec Z.eq_dec w dot); [split; assumption|].
  destruct (list_eq_dec Z.eq_dec w dotdot).
  - destruct ns; split; cbn; auto; [intros ->; auto|inversion F; assumption].
  - split; cbn; [exact Hk|]. constructor; [split; [split; [assumption|split; assumption]|assumption]|assumption].
Qed.

Lemma clean_loop_ok rt : forall fuel rest l, (length rest <= fuel)%nat -> okloc rt l ->
  clean_loop fuel rt rest (rev (body rt l)) (base rt (fst l)) = rev (body rt (fold_left (norm_step rt) (parts rest) l)).
Proof.
  induction fuel as [|fuel IH]; intros rest l Lf Ok.
  { destruct rest; [|cbn in Lf; lia]. destruct l as [k ns]. reflexivity. }
  destruct (first_part rest) as (w & r & E & Nw & En & A & B).
  assert (Fold : fold_left (norm_step rt) (parts rest) l = fold_left (norm_step rt) (parts r) (norm_step rt l w)).
  { destruct (ends_cases r En) as [->|[r' ->]]; [rewrite (A eq_refl)|rewrite (B r' eq_refl)]; cbn [parts fold_left]; change (47 =? 47) with true; cbn [fold_left].
    - destruct (norm_step rt l w); reflexivity.
    - f_equal. destruct (norm_step rt l w); reflexivity. }
  rewrite Fold. pose proof (norm_step_ok rt l w Ok Nw) as Ok'. destruct l as [k ns]. cbn [fst].
  destruct w as [|c w].
  - (* an empty part *)
    cbn [app] in E. subst r. destruct (ends_cases rest En) as [->|[r' ->]]; [reflexivity|].
    cbn [clean_loop]. change (47 =? 47) with true. cbn iota. cbn [length] in Lf. exact (IH r' (k, ns) ltac:(lia) Ok).
  - inversion Nw as [|? ? Nc Nw']; subst. cbn [app length] in Lf |- *. rewrite app_length in Lf. cbn [clean_loop].
    rewrite (proj2 (Z.eqb_neq c 47) Nc).
    destruct (list_eq_dec Z.eq_dec (c :: w) dot) as [Ed|Nd].
    { unfold dot in Ed. injection Ed as -> ->. cbn [app]. rewrite En. cbn [Z.eqb Pos.eqb andb]. exact (IH r (k, ns) ltac:(cbn in Lf; lia) Ok). }
    replace ((c =? 46) && ends (w ++ r)) with false.
    2:{ symmetry. apply andb_false_iff. destruct (Z.eqb_spec c 46) as [->|]; [right|left; reflexivity]. destruct w as [|d w]; [exfalso; apply Nd; reflexivity|].
        inversion Nw'; subst. cbn. apply Z.eqb_neq. assumption. }
    destruct (list_eq_dec Z.eq_dec (c :: w) dotdot) as [Edd|Ndd].
    { unfold dotdot in Edd. injection Edd as -> ->. cbn [app tl Z.eqb Pos.eqb andb]. rewrite En.
      unfold norm_step in Ok' |- *. cbn [list_eq_dec] in Ok' |- *.
      destruct (list_eq_dec Z.eq_dec [46; 46] []) as [X|_]; [discriminate X|]. destruct (list_eq_dec Z.eq_dec [46; 46] dot) as [X|_]; [discriminate X|].
      destruct (list_eq_dec Z.eq_dec [46; 46] dotdot) as [_|X]; [|destruct (X eq_refl)].
      destruct ns as [|n ns].
      - replace (base rt k <? length (rev (body rt (k, []))))%nat with false by (symmetry; apply Nat.ltb_ge; rewrite rev_length; reflexivity).
        destruct rt; cbn [negb].
        + exact (IH r (k, []) ltac:(cbn in Lf; lia) Ok').
        + replace (46 :: 46 :: (if (0 <? length (rev (body false (k, []))))%nat then 47 :: rev (body false (k, [])) else rev (body false (k, []))))
            with (rev (body false (S k, []))).
          * rewrite rev_length. exact (IH r (S k, []) ltac:(cbn in Lf; lia) Ok').
          * rewrite (body_up false k eq_refl), !rev_app_distr. cbn [dotdot rev app]. rewrite rev_length. f_equal. f_equal.
            destruct k; [reflexivity|]. replace (0 <? length (body false (S k, [])))%nat with true; [reflexivity|].
            symmetry. apply Nat.ltb_lt. rewrite (body_up false k eq_refl), !app_length. cbn [dotdot length]. lia.
      - replace (base rt k <? length (rev (body rt (k, n :: ns))))%nat with true.
        + rewrite (backtrack_body rt k n ns Ok). exact (IH r (k, ns) ltac:(cbn in Lf; lia) Ok').
        + symmetry. apply Nat.ltb_lt. rewrite rev_length. apply body_length_pos. destruct Ok as [_ F]. inversion F; assumption. }
    replace ((c =? 46) && match w ++ r with [] => false | d :: r2 => (d =? 46) && ends r2 end) with false.
    2:{ symmetry. apply andb_false_iff. destruct (Z.eqb_spec c 46) as [->|]; [right|left; reflexivity]. destruct w as [|d w].
        - cbn [app]. destruct (ends_cases r En) as [->|[r' ->]]; reflexivity.
        - cbn [app]. apply andb_false_iff. destruct (Z.eqb_spec d 46) as [->|]; [right|left; reflexivity].
          inversion Nw' as [|? ? _ Nw2]; subst. destruct w as [|x w]; [exfalso; apply Ndd; reflexivity|]. inversion Nw2; subst. cbn. apply Z.eqb_neq. assumption. }
    change (c :: w ++ r) with ((c :: w) ++ r). rewrite (copy_name_ok (c :: w) r _ Nw En).
    assert (St : norm_step rt (k, ns) (c :: w) = (k, (c :: w) :: ns)).
    { unfold norm_step. destruct (list_eq_dec Z.eq_dec (c :: w) []) as [X|_]; [discriminate X|]. destruct (list_eq_dec Z.eq_dec (c :: w) dot); [congruence|].
      destruct (list_eq_dec Z.eq_dec (c :: w) dotdot); [congruence|reflexivity]. }
    rewrite St in Ok' |- *. replace (rev (c :: w) ++ _) with (rev (body rt (k, (c :: w) :: ns))).
    + exact (IH r (k, (c :: w) :: ns) ltac:(lia) Ok').
    + rewrite (body_down rt k (c :: w) ns), !rev_app_distr, <- app_assoc. f_equal. rewrite rev_length.
      assert (Z0 : (rt && negb (length (body rt (k, ns)) =? 1)%nat) || (negb rt && negb (length (body rt (k, ns)) =? 0)%nat) =
                   negb (match k, ns with O, [] => true | _, _ => false end)).
      { destruct k as [|k]; [destruct ns as [|n ns]|].
        - destruct rt; reflexivity.
        - cbn [negb]. pose proof (body_length_pos rt 0 n ns ltac:(destruct Ok as [_ F]; inversion F; assumption)) as P.
          destruct rt; cbn in P |- *; rewrite ?orb_false_r; apply negb_true_iff, Nat.eqb_neq; lia.
        - cbn [negb]. pose proof (body_length rt (S k) ns) as P. destruct rt; [destruct Ok as [Hk _]; specialize (Hk eq_refl); discriminate|].
          unfold base in P. rewrite (body_up false k eq_refl), !app_length in P. cbn [dotdot length] in P. cbn [negb andb orb]. apply negb_true_iff, Nat.eqb_neq. lia. }
      rewrite Z0. destruct k as [|k]; [destruct ns as [|n ns]|]; reflexivity.
Qed.
Lemma ok_norm rt ws l : okloc rt l -> Forall noslash ws -> okloc rt (fold_left (norm_step rt) ws l).
Proof. intros Ok F. revert l Ok. induction F as [|w ws H _ IH]; intros l Ok; [exact Ok|]. cbn. apply IH, norm_step_ok; assumption. Qed.
Lemma norm_ok p : okloc (rooted p) (norm p).
Proof. apply ok_norm; [split; [reflexivity|constructor]|apply parts_noslash]. Qed.

(** Clean writes the normal form *)
Definition text_of (rt : bool) (l : loc) : list Z := match body rt l with [] => dot | t => t end.
Lemma clean_norm p : p <> [] -> clean p = text_of (rooted p) (norm p).
Proof.
  destruct p as [|c r]; intros Ne; [congruence|]. clear Ne. unfold clean, text_of, norm. cbn [rooted]. destruct (Z.eqb_spec c 47) as [->|N].
  - change (clean_loop (length (47 :: r)) true r [47] 1) with (clean_loop (length (47 :: r)) true r (rev (body true (0%nat, []))) (base true (fst (0%nat, @nil (list Z))))).
    rewrite clean_loop_ok; [|cbn; lia|split; [reflexivity|constructor]]. cbn [parts]. change (47 =? 47) with true. cbn [fold_left].
    change (norm_step true (0%nat, []) []) with (0%nat, @nil (list Z)). destruct (body true _) eqn:E; [reflexivity|]. rewrite <- E.
    destruct (rev (body true _)) eqn:E2; [rewrite <- (rev_involutive (body true _)), E2 in E; discriminate|]. rewrite <- E2. apply rev_involutive.
  - change (clean_loop (length (c :: r)) false (c :: r) [] 0) with (clean_loop (length (c :: r)) false (c :: r) (rev (body false (0%nat, []))) (base false (fst (0%nat, @nil (list Z))))).
    rewrite clean_loop_ok; [|cbn; lia|split; [reflexivity|constructor]]. destruct (body false _) eqn:E; [reflexivity|]. rewrite <- E.
    destruct (rev (body false _)) eqn:E2; [rewrite <- (rev_involutive (body false _)), E2 in E; discriminate|]. rewrite <- E2. apply rev_involutive.
Qed.
