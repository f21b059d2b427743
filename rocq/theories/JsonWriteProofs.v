(** Writing a JSON tree, and reading back what was written. *)
From Verif Require Import Base Union Writer Readers ReaderSpec Rest Json JsonLex JsonSpec JsonWrite JsonLexProofs.
From Coq Require Import ZifyBool.
Open Scope go_scope.
Open Scope Z_scope.

(** ** []rune(string) undoes string([]rune) *)
Lemma runes_of_encode c s : scalar c -> runes_of (encode c ++ s) = c :: runes_of s.
Proof.
  intros [R NS]. unfold encode.
  destruct (c <? 128) eqn:C1. { cbn [app runes_of]. rewrite C1. reflexivity. }
  destruct (c <? 2048) eqn:C2.
  { cbn [app runes_of]. pose proof (Z.div_mod c 64). pose proof (Z.mod_pos_bound c 64). 
    set (q := c / 64) in *. set (r := c mod 64) in *. unfold cont.
    replace (192 + q <? 128) with false by lia. replace ((194 <=? 192 + q) && (192 + q <=? 223) && ((128 <=? 128 + r) && (128 + r <=? 191))) with true by lia.
    f_equal. lia. }
  destruct (c <? 65536) eqn:C3.
  { cbn [app runes_of].
    assert (E : c = (c / 4096) * 4096 + (c / 64 mod 64) * 64 + c mod 64).
    { pose proof (Z.div_mod c 64 ltac:(lia)). pose proof (Z.div_mod (c / 64) 64 ltac:(lia)). rewrite Z.div_div in H0 by lia. change (64 * 64) with 4096 in H0. lia. }
    pose proof (Z.mod_pos_bound c 64 ltac:(lia)). pose proof (Z.mod_pos_bound (c / 64) 64 ltac:(lia)).
    set (a := c / 4096) in *. set (b := c / 64 mod 64) in *. set (d := c mod 64) in *. unfold cont.
    replace (224 + a <? 128) with false by lia. replace ((194 <=? 224 + a) && (224 + a <=? 223)) with false by lia. cbn [andb].
    replace ((224 + a - 224) * 4096 + (128 + b - 128) * 64 + (128 + d - 128)) with c by lia.
    replace ((224 <=? 224 + a) && (224 + a <=? 239) && ((128 <=? 128 + b) && (128 + b <=? 191)) && ((128 <=? 128 + d) && (128 + d <=? 191)) && (2048 <=? c) && negb ((55296 <=? c) && (c <=? 57343))) with true by lia.
    reflexivity. }
  cbn [app runes_of].
  assert (E : c = (c / 262144) * 262144 + (c / 4096 mod 64) * 4096 + (c / 64 mod 64) * 64 + c mod 64).
  { pose proof (Z.div_mod c 64 ltac:(lia)). pose proof (Z.div_mod (c / 64) 64 ltac:(lia)) as H0. rewrite Z.div_div in H0 by lia. change (64 * 64) with 4096 in H0.
    pose proof (Z.div_mod (c / 4096) 64 ltac:(lia)) as H1. rewrite Z.div_div in H1 by lia. change (4096 * 64) with 262144 in H1. lia. }
  pose proof (Z.mod_pos_bound c 64 ltac:(lia)). pose proof (Z.mod_pos_bound (c / 64) 64 ltac:(lia)). pose proof (Z.mod_pos_bound (c / 4096) 64 ltac:(lia)).
  set (a := c / 262144) in *. set (b := c / 4096 mod 64) in *. set (d := c / 64 mod 64) in *. set (g := c mod 64) in *. unfold cont.
  replace (240 + a <? 128) with false by lia. replace ((194 <=? 240 + a) && (240 + a <=? 223)) with false by lia. cbn [andb].
  replace ((224 <=? 240 + a) && (240 + a <=? 239)) with false by lia. cbn [andb].
  replace ((240 + a - 240) * 262144 + (128 + b - 128) * 4096 + (128 + d - 128) * 64 + (128 + g - 128)) with c by lia.
  replace ((240 <=? 240 + a) && (240 + a <=? 244) && ((128 <=? 128 + b) && (128 + b <=? 191)) && ((128 <=? 128 + d) && (128 + d <=? 191)) && ((128 <=? 128 + g) && (128 + g <=? 191)) && (65536 <=? c) && (c <=? 1114111)) with true by lia.
  reflexivity.
Qed.
Lemma runes_of_utf8 s : Forall scalar s -> runes_of (utf8 s) = s.
Proof. induction 1 as [|c s H _ IH]; [reflexivity|]. unfold utf8 in *. cbn [flat_map]. rewrite runes_of_encode, IH; auto. Qed.
Lemma runes_of_ascii s : Forall (fun c => 0 <= c < 128) s -> runes_of s = s.
Proof. induction 1 as [|c s H _ IH]; [reflexivity|]. cbn [runes_of]. replace (c <? 128) with true by lia. rewrite IH. reflexivity. Qed.
Lemma utf8_inj a b : Forall scalar a -> Forall scalar b -> utf8 a = utf8 b -> a = b.
Proof. intros A B E. rewrite <- (runes_of_utf8 a A), <- (runes_of_utf8 b B), E. reflexivity. Qed.

(** ** Trees *)
Fixpoint rtree_rect' (P : rtree -> Prop) (HO : forall m, (forall k t, In (k, t) m -> P t) -> P (RObj m))
  (HA : forall l, (forall t, In t l -> P t) -> P (RArr l)) (HS : forall s, P (RStr s)) (HN : forall s, P (RNum s))
  (HB : forall b, P (RBool b)) (HZ : P RNull) (t : rtree) {struct t} : P t.
Proof.
  destruct t as [m|l|s|s|b|]; auto.
  - apply HO. induction m as [|[k0 t0] m IHm]; intros k t HI; [destruct HI|]. destruct HI as [E|H0]; [|apply (IHm k t H0)].
    injection E; intros E2 _. rewrite <- E2. apply (rtree_rect' P HO HA HS HN HB HZ t0).
  - apply HA. induction l as [|t0 l IHl]; intros t HI; [destruct HI|]. destruct HI as [E|H0]; [|apply (IHl t H0)].
    rewrite <- E. apply (rtree_rect' P HO HA HS HN HB HZ t0).
Qed.

Section W.
  Context {W : Type} (fn : W -> Z -> option err * W).
  Notation dst := (write fn).
  Definition andthen (r : option err * W) (k : W -> outcome (option err * W)) : outcome (option err * W) :=
    match r with (Some e, w) => Done (Some e, w) | (None, w) => k w end.
  Lemma write_app a b w : Done (dst w (a ++ b)) = andthen (dst w a) (fun w1 => Done (dst w1 b)).
  Proof.
    revert w. induction a as [|c a IH]; intros w; [reflexivity|]. cbn [app write].
    destruct (fn w c) as [[e|] w1]; [reflexivity|]. apply IH.
  Qed.
  Lemma andthen_ext r k1 k2 : (forall w, k1 w = k2 w) -> andthen r k1 = andthen r k2.
  Proof. intros E. destruct r as [[e|] w]; cbn; auto. Qed.

  Definition obj_go := fix go (m : list (str * value)) (i : nat) (w : W) : outcome (option err * W) :=
                   match m with
                   | [] => Done (dst w [125])
                   | (k, v) :: m' =>
                       let data := (if (0 <? i)%nat then [44] else []) ++ [34] ++ runes_of k ++ [34; 58] in
                       let '(e, w1) := dst w data in
                       match e with
                       | Some _ => Done (e, w1)
                       | None =>
                           let! (e2, w2) := write_json dst v w1 in
                           match e2 with
                           | Some _ => Done (e2, w2)
                           | None => go m' (i + 1)%nat w2
                           end
                       end
                   end.
  Definition arr_go := fix go (l : list value) (i : nat) (w : W) : outcome (option err * W) :=
                   match l with
                   | [] => Done (dst w [93])
                   | v :: l' =>
                       let '(e, w1) := if (0 <? i)%nat then dst w [44] else (None, w) in
                       match e with
                       | Some _ => Done (e, w1)
                       | None =>
                           let! (e2, w2) := write_json dst v w1 in
                           match e2 with
                           | Some _ => Done (e2, w2)
                           | None => go l' (i + 1)%nat w2
                           end
                       end
                   end.
  Definition comma_if (i : nat) : list Z := if (0 <? i)%nat then [44] else [].
  Lemma sep_cons (x : list Z) l : sep [44] (x :: l) = x ++ match l with [] => [] | _ => [44] ++ sep [44] l end.
  Proof. destruct l; cbn; [rewrite app_nil_r|]; reflexivity. Qed.

  Lemma obj_go_ok m : (forall k t, In (k, t) m -> Forall scalar k /\ forall w, write_json dst (value_of (tree_of t)) w = Done (dst w (render t))) ->
    forall i w, obj_go (map (fun kv => (utf8 (fst kv), value_of (tree_of (snd kv)))) m) i w =
      Done (dst w (match m with [] => [] | _ => comma_if i end ++ sep [44] (map (fun kv => [34] ++ fst kv ++ [34; 58] ++ render (snd kv)) m) ++ [125])).
  Proof.
    induction m as [|[k t] m IH]; intros H i w; [reflexivity|].
    destruct (H k t (or_introl eq_refl)) as [SK WT]. cbn [map obj_go fst snd]. rewrite runes_of_utf8 by auto.
    rewrite sep_cons. fold (comma_if i). 
    set (head := comma_if i ++ [34] ++ k ++ [34; 58]).
    set (tail := match map (fun kv => [34] ++ fst kv ++ [34; 58] ++ render (snd kv)) m with [] => [] | _ => [44] ++ sep [44] (map (fun kv => [34] ++ fst kv ++ [34; 58] ++ render (snd kv)) m) end ++ [125]).
    transitivity (Done (dst w (head ++ render t ++ tail))).
    2:{ unfold head, tail. f_equal. f_equal. rewrite <- !app_assoc. cbn [app]. repeat f_equal. }
    rewrite write_app. cbv zeta. destruct (dst w head) as [[e|] w1]; cbn [andthen]; [reflexivity|].
    rewrite WT. cbn [obind]. rewrite write_app. destruct (dst w1 (render t)) as [[e|] w2]; cbn [andthen]; [reflexivity|].
    etransitivity; [apply (IH (fun k t I => H k t (or_intror I)))|]. f_equal. f_equal. unfold tail, comma_if. replace (0 <? i + 1)%nat with true by (symmetry; apply Nat.ltb_lt; lia).
    destruct m; [reflexivity|]. cbn [map]. rewrite <- !app_assoc. reflexivity.
  Qed.
  Lemma arr_go_ok l : (forall t, In t l -> forall w, write_json dst (value_of (tree_of t)) w = Done (dst w (render t))) ->
    forall i w, arr_go (map (fun t => value_of (tree_of t)) l) i w =
      Done (dst w (match l with [] => [] | _ => comma_if i end ++ sep [44] (map render l) ++ [93])).
  Proof.
    induction l as [|t l IH]; intros H i w; [reflexivity|].
    pose proof (H t (or_introl eq_refl)) as WT. cbn [map arr_go].
    rewrite sep_cons.
    set (tail := match map render l with [] => [] | _ => [44] ++ sep [44] (map render l) end ++ [93]).
    transitivity (Done (dst w (comma_if i ++ render t ++ tail))).
    2:{ unfold tail. f_equal. f_equal. rewrite <- !app_assoc. reflexivity. }
    rewrite write_app. assert (E : (if (0 <? i)%nat then dst w [44] else (None, w)) = dst w (comma_if i)) by (unfold comma_if; destruct (0 <? i)%nat; reflexivity).
    rewrite E. destruct (dst w (comma_if i)) as [[e|] w1]; cbn [andthen]; [reflexivity|].
    rewrite WT. cbn [obind]. rewrite write_app. destruct (dst w1 (render t)) as [[e|] w2]; cbn [andthen]; [reflexivity|].
    etransitivity; [apply (IH (fun t I => H t (or_intror I)))|]. f_equal. f_equal. unfold tail, comma_if. replace (0 <? i + 1)%nat with true by (symmetry; apply Nat.ltb_lt; lia).
    destruct l; [reflexivity|]. cbn [map]. rewrite <- !app_assoc. reflexivity.
  Qed.

  Lemma write_render t : encodable t -> forall w, write_json dst (value_of (tree_of t)) w = Done (dst w (render t)).
  Proof.
    induction t as [m IH|l IH|s|s|b|] using rtree_rect'; intros EN w.
    - inversion EN as [m' H| | | | |]; subst. cbn [tree_of value_of write_json render of4t]. rewrite write_app.
      destruct (dst w [123]) as [[e|] w1]; cbn [andthen]; [reflexivity|]. cbn [check which_eqb obind]. rewrite map_map. cbn [fst snd].
      etransitivity; [apply (obj_go_ok m)|].
      + intros k t I. destruct (H k t I) as [A B]. split; auto. intros w0. apply (IH k t I); auto.
      + destruct m; reflexivity.
    - inversion EN as [|l' H| | | |]; subst. cbn [tree_of value_of write_json render of4u]. rewrite write_app.
      destruct (dst w [91]) as [[e|] w1]; cbn [andthen]; [reflexivity|]. cbn [check which_eqb obind]. rewrite map_map.
      etransitivity; [apply (arr_go_ok l)|].
      + intros t I w0. apply (IH t I); auto.
      + destruct l; reflexivity.
    - inversion EN; subst. cbn. rewrite runes_of_utf8 by auto. reflexivity.
    - inversion EN; subst. cbn. rewrite runes_of_ascii by auto. reflexivity.
    - destruct b; reflexivity.
    - reflexivity.
  Qed.
End W.

(** ** What is written is a strict JSON text *)
Lemma writable_encodable t : writable t -> encodable t.
Proof.
  induction t as [m IH|l IH|s|s|b|] using rtree_rect'; intros WR; inversion WR as [m' ND H|l' H|s' H|s' H| |]; subst; constructor; auto.
  - intros k t I. destruct (H k t I) as [P Q]. split; [|apply (IH k t I); auto]. revert P. apply Forall_impl. unfold plain_char. tauto.
  - revert H. apply Forall_impl. unfold plain_char. tauto.
  - destruct H as (sg & i & f & x & -> & SG & IP & FP & XP).
    assert (DG : forall ds, Forall digitc ds -> Forall (fun c => 0 <= c < 128) ds) by (intros ds; apply Forall_impl; unfold digitc; lia).
    repeat rewrite Forall_app. split; [|split; [|split]].
    + destruct SG; repeat constructor; lia.
    + destruct IP; repeat constructor; try lia; auto.
    + destruct FP as [|ds [_ D]]; constructor; [lia|auto].
    + destruct XP as [|e0 sg0 ds He Hs [_ D]]; [constructor|]. constructor; [lia|]. apply Forall_app. split; [|auto].
      destruct Hs as [->|[->| ->]]; repeat constructor; lia.
Qed.

Lemma plain_token s : plain_string s -> token_text ([34] ++ s ++ [34]) (mkTok tString (utf8 s)).
Proof.
  intros P. assert (E : concat (map (fun c => [c]) s) = s) by (clear P; induction s as [|c s IH]; cbn; [|rewrite IH]; reflexivity).
  rewrite <- E at 1. apply tt_string.
  - clear E. induction P as [|c s [SC [A [B C]]] P IH]; cbn; constructor; auto. apply sp_literal; auto.
  - revert P. apply Forall_impl. unfold plain_char. tauto.
  - intros u I UE. apply in_map_iff in I as (c & <- & _). inversion UE.
Qed.

Definition delim_start (rest : list Z) : Prop := exists c r, rest = c :: r /\ delimiter c.
Definition lexes_to (text : list Z) (toks : list token) : Prop :=
  forall rest more fin, delim_start rest -> lexed rest more fin -> lexed (text ++ rest) (toks ++ more) fin.
Definition lexes_closed (text : list Z) (toks : list token) : Prop :=
  forall rest more fin, lexed rest more fin -> lexed (text ++ rest) (toks ++ more) fin.
Lemma closed_to text toks : lexes_closed text toks -> lexes_to text toks.
Proof. intros H rest more fin _. apply H. Qed.

Lemma punct_lexed u t rest more fin : token_text u t -> ttyp t <> tNumber -> ttyp t <> tBoolean -> ttyp t <> tNull ->
  lexed rest more fin -> lexed (u ++ rest) (t :: more) fin.
Proof. intros T A B C H. apply lx_tok; auto. intros [|[|]]; congruence. Qed.

Lemma members_lexed m : m <> [] -> NoDup (map fst m) ->
  (forall k t, In (k, t) m -> plain_string k /\ exists toks, gval true toks (tree_of t) /\ lexes_to (render t) toks) ->
  forall seen, (forall k, In k (map fst m) -> ~ In (utf8 k) seen) ->
  exists toks, gmembers true seen toks (map (fun kv => (utf8 (fst kv), tree_of (snd kv))) m) /\
    lexes_closed (sep [44] (map (fun kv => [34] ++ fst kv ++ [34; 58] ++ render (snd kv)) m) ++ [125]) toks.
Proof.
  induction m as [|[k t] m IH]; intros NE ND H seen NS; [congruence|].
  destruct (H k t (or_introl eq_refl)) as (PK & toks & G & LX). inversion ND as [|? ? NI ND']; subst.
  assert (HEAD : forall text ts, (forall rest more fin, lexed rest more fin -> delim_start (text ++ rest) /\ lexed (text ++ rest) (ts ++ more) fin) ->
    lexes_closed (([34] ++ k ++ [34; 58] ++ render t) ++ text) (mkTok tString (utf8 k) :: tokColon :: toks ++ ts)).
  { intros text ts HT rest more fin HR. destruct (HT rest more fin HR) as [D L].
    replace ((([34] ++ k ++ [34; 58] ++ render t) ++ text) ++ rest) with (([34] ++ k ++ [34]) ++ [58] ++ render t ++ text ++ rest)
      by (rewrite <- !app_assoc; cbn [app]; reflexivity).
    match goal with |- lexed ?x _ _ => change (lexed x (mkTok tString (utf8 k) :: tokColon :: (toks ++ ts) ++ more) fin) end. apply punct_lexed; try discriminate; [apply plain_token; auto|].
    apply punct_lexed; try discriminate; [apply tt_colon|].
    rewrite <- app_assoc. apply LX; auto. }
  destruct m as [|kt m].
  - exists (mkTok tString (utf8 k) :: tokColon :: toks ++ [tokCBrace]). split.
    + apply gm_last; auto; apply NS; left; auto.
    + cbn [map sep fst snd]. apply HEAD. intros rest more fin HR. split; [exists 125, rest; split; [reflexivity|unfold delimiter; lia]|].
      apply punct_lexed; try discriminate; [apply tt_cbrace|auto].
  - destruct (IH ltac:(discriminate) ND' (fun k t I => H k t (or_intror I)) (utf8 k :: seen)) as (toks' & G' & LX').
    { intros k' I' [E|J]; [|apply (NS k'); [right; auto|auto]]. apply NI. 
      assert (SK : Forall scalar k) by (revert PK; apply Forall_impl; unfold plain_char; tauto).
      assert (SK' : Forall scalar k').
      { apply in_map_iff in I' as ([k1 t1] & E1 & I1). cbn in E1. subst k1. destruct (H k' t1 (or_intror I1)) as [P' _]. revert P'. apply Forall_impl. unfold plain_char. tauto. }
      apply utf8_inj in E; auto. subst. exact I'. }
    exists (mkTok tString (utf8 k) :: tokColon :: toks ++ tokComma :: toks'). split.
    + cbn [map fst snd]. apply gm_more; auto. apply NS. left; auto.
    + cbn [map]. rewrite sep_cons. cbn [fst snd]. rewrite <- app_assoc. apply HEAD. intros rest more fin HR. split.
      { exists 44. eexists. split; [reflexivity|unfold delimiter; lia]. }
      cbn [map] in LX'. rewrite <- !app_assoc. cbn [app].
      match goal with |- lexed (44 :: ?x) _ _ => change (44 :: x) with ([44] ++ x) end.
      apply punct_lexed; try discriminate; [apply tt_comma|]. specialize (LX' rest more fin HR). rewrite <- app_assoc in LX'. exact LX'.
Qed.

Lemma elems_lexed l : l <> [] ->
  (forall t, In t l -> exists toks, gval true toks (tree_of t) /\ lexes_to (render t) toks) ->
  exists toks, gelems true toks (map tree_of l) /\ lexes_closed (sep [44] (map render l) ++ [93]) toks.
Proof.
  induction l as [|t l IH]; intros NE H; [congruence|].
  destruct (H t (or_introl eq_refl)) as (toks & G & LX).
  assert (HEAD : forall text ts, (forall rest more fin, lexed rest more fin -> delim_start (text ++ rest) /\ lexed (text ++ rest) (ts ++ more) fin) ->
    lexes_closed (render t ++ text) (toks ++ ts)).
  { intros text ts HT rest more fin HR. destruct (HT rest more fin HR) as [D L]. rewrite <- !app_assoc. apply LX; auto. }
  destruct l as [|t2 l].
  - exists (toks ++ [tokCBracket]). split.
    + apply ge_last; auto.
    + cbn [map sep]. apply HEAD. intros rest more fin HR. split; [exists 93, rest; split; [reflexivity|unfold delimiter; lia]|].
      apply punct_lexed; try discriminate; [apply tt_cbracket|auto].
  - destruct (IH ltac:(discriminate) (fun t I => H t (or_intror I))) as (toks' & G' & LX').
    exists (toks ++ tokComma :: toks'). split.
    + cbn [map]. apply ge_more; auto.
    + cbn [map]. rewrite sep_cons. rewrite <- app_assoc. apply HEAD. intros rest more fin HR. split.
      { exists 44. eexists. split; [reflexivity|unfold delimiter; lia]. }
      cbn [map] in LX'. rewrite <- !app_assoc. cbn [app].
      match goal with |- lexed (44 :: ?x) _ _ => change (44 :: x) with ([44] ++ x) end.
      apply punct_lexed; try discriminate; [apply tt_comma|]. specialize (LX' rest more fin HR). rewrite <- app_assoc in LX'. exact LX'.
Qed.

(** no value starts with a closing bracket *)
Lemma gval_strict_start toks t : gval true toks t -> hd tCBracket (map ttyp toks) <> tCBracket.
Proof. destruct 1; cbn; try discriminate; congruence. Qed.
Lemma gelems_strict_start toks l : gelems true toks l -> hd tCBracket (map ttyp toks) <> tCBracket.
Proof.
  destruct 1 as [ts t c G C|ts t comma ts' l G C E]; pose proof (gval_strict_start _ _ G) as N; destruct ts as [|u us]; cbn in *; try congruence; inversion G.
Qed.

Lemma render_lexed t : writable t ->
  exists toks, gval true toks (tree_of t) /\ lexes_to (render t) toks /\ (rcontainer t -> lexes_closed (render t) toks).
Proof.
  induction t as [m IH|l IH|s|s|b|] using rtree_rect'; intros WR; inversion WR as [m' ND H|l' H|s' H|s' H| |]; subst.
  - assert (X : exists toks, gval true toks (JObj (map (fun kv => (utf8 (fst kv), tree_of (snd kv))) m)) /\ lexes_closed (render (RObj m)) toks).
    { destruct m as [|kt m].
      - exists [tokOBrace; tokCBrace]. split; [apply g_obj0; reflexivity|]. intros rest more fin HR. cbn.
        change (123 :: 125 :: rest) with ([123] ++ [125] ++ rest). apply punct_lexed; try discriminate; [apply tt_obrace|]. apply punct_lexed; try discriminate; [apply tt_cbrace|auto].
      - destruct (members_lexed (kt :: m) ltac:(discriminate) ND) with (seen := @nil str) as (toks & G & LX).
        + intros k t I. destruct (H k t I) as [A B]. split; auto. destruct (IH k t I B) as (toks & G & L & _). eauto.
        + intros k _ [].
        + exists (tokOBrace :: toks). split; [apply g_obj; auto|]. intros rest more fin HR. specialize (LX rest more fin HR). cbn [render app].
          match goal with |- lexed (123 :: ?x) _ _ => change (123 :: x) with ([123] ++ x) end. apply punct_lexed; try discriminate; [apply tt_obrace|exact LX]. }
    destruct X as (toks & G & L). exists toks. split; auto. split; auto. apply closed_to; auto.
  - assert (X : exists toks, gval true toks (JArr (map tree_of l)) /\ lexes_closed (render (RArr l)) toks).
    { destruct l as [|t0 l].
      - exists [tokOBracket; tokCBracket]. split; [apply g_arr0; reflexivity|]. intros rest more fin HR. cbn.
        change (91 :: 93 :: rest) with ([91] ++ [93] ++ rest). apply punct_lexed; try discriminate; [apply tt_obracket|]. apply punct_lexed; try discriminate; [apply tt_cbracket|auto].
      - destruct (elems_lexed (t0 :: l) ltac:(discriminate)) as (toks & G & LX).
        + intros t I. destruct (IH t I (H t I)) as (toks & G & L & _). eauto.
        + exists (tokOBracket :: toks). split; [apply g_arr; auto; eapply gelems_strict_start; eauto|]. intros rest more fin HR. specialize (LX rest more fin HR). cbn [render app].
          match goal with |- lexed (91 :: ?x) _ _ => change (91 :: x) with ([91] ++ x) end. apply punct_lexed; try discriminate; [apply tt_obracket|exact LX]. }
    destruct X as (toks & G & L). exists toks. split; auto. split; auto. apply closed_to; auto.
  - exists [mkTok tString (utf8 s)]. split; [apply g_str|]. split; [|intros []].
    intros rest more fin D HR. cbn [render]. apply punct_lexed; try discriminate; auto. apply plain_token; auto.
  - exists [mkTok tNumber s]. split; [apply g_num|]. split; [|intros []].
    intros rest more fin D HR. cbn [render]. apply lx_tok; auto. apply tt_number; auto.
  - exists [if b then tokTrue else tokFalse]. split; [destruct b; [apply g_true|apply g_false]|]. split; [|intros []].
    intros rest more fin D HR. destruct b; cbn [render]; apply lx_tok; auto; constructor.
  - exists [tokNull]. split; [apply g_null|]. split; [|intros []].
    intros rest more fin D HR. cbn [render]; apply lx_tok; auto; constructor.
Qed.
Lemma render_strict t : writable t -> rcontainer t -> exists toks, gval true toks (tree_of t) /\ lexed (render t) toks [].
Proof.
  intros WR C. destruct (render_lexed t WR) as (toks & G & _ & L). exists toks. split; auto.
  specialize (L C [] [] [] (lx_nil [])). rewrite !app_nil_r in L. exact L.
Qed.
Lemma render_scalar t : writable t -> Forall scalar (render t).
Proof.
  assert (AS : forall s, Forall (fun c => 0 <= c < 128) s -> Forall scalar s) by (intros s; apply Forall_impl; unfold scalar; lia).
  assert (PS : forall s, plain_string s -> Forall scalar s) by (intros s; apply Forall_impl; unfold plain_char; tauto).
  assert (SEP : forall l, Forall (Forall scalar) l -> Forall scalar (sep [44] l)).
  { induction 1 as [|x l HX HL IHL]; [constructor|]. rewrite sep_cons. apply Forall_app. split; auto. destruct l; [constructor|]. constructor; [unfold scalar; lia|]. exact IHL. }
  induction t as [m IH|l IH|s|s|b|] using rtree_rect'; intros WR.
  - inversion WR as [m' ND H|l' H|s' H|s' H| |]; subst. cbn [render]. apply Forall_app. split; [apply AS; repeat constructor; lia|]. apply Forall_app. split; [|apply AS; repeat constructor; lia].
    apply SEP. apply Forall_forall. intros x I. apply in_map_iff in I as ([k t] & <- & I). destruct (H k t I) as [P Q]. cbn [fst snd].
    apply Forall_app. split; [apply AS; repeat constructor; lia|]. apply Forall_app. split; [auto|]. apply Forall_app. split; [apply AS; repeat constructor; lia|]. apply (IH k t I Q).
  - inversion WR as [m' ND H|l' H|s' H|s' H| |]; subst. cbn [render]. apply Forall_app. split; [apply AS; repeat constructor; lia|]. apply Forall_app. split; [|apply AS; repeat constructor; lia].
    apply SEP. apply Forall_forall. intros x I. apply in_map_iff in I as (t & <- & I). apply (IH t I); auto.
  - inversion WR as [m' ND H|l' H|s' H|s' H| |]; subst. cbn [render]. apply Forall_app. split; [apply AS; repeat constructor; lia|]. apply Forall_app. split; [auto|apply AS; repeat constructor; lia].
  - apply AS. pose proof (writable_encodable _ WR) as E. inversion E; subst; auto.
  - destruct b; apply AS; repeat constructor; lia.
  - apply AS; repeat constructor; lia.
Qed.
