(** Proofs about CaseConv.v. *)
From Coq Require Import ZArith List Bool Lia.
From Verif Require Import Base ReaderSpec Writer CaseConv CaseConvSpec.
Import ListNotations.
Open Scope Z_scope.

Lemma string_ascii c : 0 <= c < 128 -> string_of_rune c = [c].
Proof.
  intros H. unfold string_of_rune, is_scalar, encode.
  replace ((0 <=? c) && (c <=? 1114111) && negb ((55296 <=? c) && (c <=? 57343))) with true by lia.
  replace (c <? 128) with true by lia. reflexivity.
Qed.

Lemma is_lower_iff c : is_lower c = true <-> small c.
Proof. unfold is_lower, small. lia. Qed.
Lemma is_upper_iff c : is_upper c = true <-> capital c.
Proof. unfold is_upper, capital. lia. Qed.

(** split and join *)
Lemma split_plain w : ~ In 95 w -> split_us w = [w].
Proof.
  induction w as [|c w IH]; intros N; cbn; [reflexivity|]. unfold underscore.
  replace (c =? 95) with false by (assert (c <> 95) by (intros ->; apply N; left; reflexivity); lia).
  rewrite IH by (intros I; apply N; right; exact I). reflexivity.
Qed.
Lemma split_app w s : ~ In 95 w -> split_us (w ++ 95 :: s) = w :: split_us s.
Proof.
  induction w as [|c w IH]; intros N; cbn; [reflexivity|]. unfold underscore.
  replace (c =? 95) with false by (assert (c <> 95) by (intros ->; apply N; left; reflexivity); lia).
  rewrite IH by (intros I; apply N; right; exact I). reflexivity.
Qed.
Lemma split_joined ws : ws <> [] -> Forall (fun w => ~ In 95 w) ws -> split_us (joined ws) = ws.
Proof.
  induction ws as [|w ws IH]; intros Ne F; [congruence|]. inversion F as [|? ? N F']; subst.
  destruct ws as [|w' ws]; [apply split_plain; exact N|].
  change (joined (w :: w' :: ws)) with (w ++ 95 :: joined (w' :: ws)). rewrite split_app by exact N. rewrite IH; [reflexivity|discriminate|exact F'].
Qed.
Lemma split_nonempty s : split_us s <> [].
Proof. destruct s as [|c s]; cbn; [discriminate|]. destruct (c =? underscore); [discriminate|]. destruct (split_us s); discriminate. Qed.
Lemma split_app_gen a b : split_us (a ++ 95 :: b) = split_us a ++ split_us b.
Proof.
  induction a as [|c a IH]; [reflexivity|]. cbn [app split_us]. destruct (c =? underscore); [rewrite IH; reflexivity|].
  rewrite IH. pose proof (split_nonempty a) as N. destruct (split_us a) as [|w ws]; [congruence|]. reflexivity.
Qed.
Lemma joined_cons w ws : ws <> [] -> joined (w :: ws) = w ++ 95 :: joined ws.
Proof. destruct ws; [congruence|reflexivity]. Qed.
Lemma joined_app l r : l <> [] -> r <> [] -> joined (l ++ r) = joined l ++ 95 :: joined r.
Proof.
  induction l as [|w l IH]; intros Nl Nr; [congruence|]. destruct l as [|w' l].
  - cbn [app]. rewrite joined_cons by exact Nr. reflexivity.
  - change ((w :: w' :: l) ++ r) with (w :: (w' :: l) ++ r). rewrite joined_cons by discriminate. rewrite IH by (discriminate || exact Nr).
    rewrite (joined_cons w (w' :: l)) by discriminate. rewrite <- app_assoc. reflexivity.
Qed.
Lemma joined_split s : joined (split_us s) = s.
Proof.
  induction s as [|c s IH]; [reflexivity|]. cbn [split_us]. pose proof (split_nonempty s) as N. destruct (c =? underscore) eqn:C.
  - rewrite joined_cons by exact N. rewrite IH. unfold underscore in C. replace c with 95 by lia. reflexivity.
  - destruct (split_us s) as [|w ws]; [congruence|]. destruct ws as [|w' ws]; cbn in *; rewrite IH; reflexivity.
Qed.
Lemma split_empty_word s : In [] (split_us s) <->
  s = [] \/ (exists t, s = 95 :: t) \/ (exists t, s = t ++ [95]) \/ exists a b, s = a ++ 95 :: 95 :: b.
Proof.
  split.
  - intros I. apply in_split in I. destruct I as (l & r & E). rewrite <- (joined_split s), E.
    destruct l as [|w l].
    + destruct r as [|w' r]; [left; reflexivity|]. right. left. exists (joined (w' :: r)). reflexivity.
    + right. right. destruct r as [|w' r].
      * left. exists (joined (w :: l)). rewrite joined_app by discriminate. reflexivity.
      * right. exists (joined (w :: l)), (joined (w' :: r)). rewrite joined_app by discriminate. reflexivity.
  - intros [->|[(t & ->)|[(t & ->)|(a & b & ->)]]].
    + left. reflexivity.
    + left. reflexivity.
    + rewrite split_app_gen. apply in_or_app. right. left. reflexivity.
    + rewrite split_app_gen. apply in_or_app. right. left. reflexivity.
Qed.

Section Case.
  Variable up : Z -> Z.

  Lemma s2c_panics ws : forall sb, s2c_loop up ws sb = Panicked <-> In [] ws.
  Proof.
    induction ws as [|w ws IH]; intros sb; cbn; [split; [discriminate|intros []]|]. destruct w as [|c r]; [tauto|]. rewrite IH. intuition congruence.
  Qed.
  Lemma s2c_done ws : ~ In [] ws -> forall sb, exists r, s2c_loop up ws sb = Done r.
  Proof.
    induction ws as [|w ws IH]; intros N sb; cbn; [eauto|]. destruct w as [|c r]; [exfalso; apply N; left; reflexivity|].
    apply IH. intros I. apply N. right. exact I.
  Qed.
  Lemma upper_rune_cap c r v : 0 <= c < 128 -> capitalised (c :: r) v -> string_of_rune (upper_rune up c) ++ r = v.
  Proof.
    intros B Cp. unfold upper_rune. inversion Cp as [c' r' Sm|c' r' Sm]; subst.
    - rewrite (proj2 (is_lower_iff c) Sm). unfold small in Sm. rewrite string_ascii by lia. reflexivity.
    - destruct (is_lower c) eqn:L; [apply is_lower_iff in L; contradiction|]. replace (c <? 128) with true by lia.
      rewrite string_ascii by lia. reflexivity.
  Qed.
  Lemma s2c_words ws vs : Forall2 capitalised ws vs -> Forall (fun w => forall c r, w = c :: r -> 0 <= c < 128) ws ->
    forall sb, s2c_loop up ws sb = Done (sb ++ concat vs).
  Proof.
    induction 1 as [|w v ws vs Cp F IH]; intros A sb; cbn; [rewrite app_nil_r; reflexivity|]. inversion A as [|? ? A1 A2]; subst.
    destruct w as [|c r]; [inversion Cp|]. rewrite IH by exact A2. rewrite <- (upper_rune_cap c r v (A1 _ _ eq_refl) Cp). rewrite <- !app_assoc. reflexivity.
  Qed.

  Lemma take_lower_all r s : Forall small r -> (forall c s', s = c :: s' -> ~ small c) -> take_lower (r ++ s) = r.
  Proof.
    induction 1 as [|c r Sm F IH]; intros N; cbn.
    - destruct s as [|c s]; [reflexivity|]. cbn. destruct (is_lower c) eqn:L; [|reflexivity]. apply is_lower_iff in L. destruct (N c s eq_refl L).
    - rewrite (proj2 (is_lower_iff c) Sm), IH by exact N. reflexivity.
  Qed.
  Lemma camel_words_skip r s : Forall small r -> camel_words (r ++ s) = camel_words s.
  Proof.
    induction 1 as [|c r Sm F IH]; cbn; [reflexivity|]. destruct (is_upper c) eqn:U; [apply is_upper_iff in U; unfold small, capital in *; lia|exact IH].
  Qed.
  Lemma camel_words_concat ws : Forall camel_word ws -> camel_words (concat ws) = ws.
  Proof.
    induction 1 as [|w ws W F IH]; [reflexivity|]. destruct W as (c & r & -> & Cc & Sr). cbn [concat app camel_words].
    rewrite (proj2 (is_upper_iff c) Cc). rewrite camel_words_skip by exact Sr. rewrite IH. rewrite take_lower_all; [reflexivity|exact Sr|].
    intros c' s' E. destruct ws as [|w' ws]; [discriminate|]. inversion F as [|? ? W' _]; subst. destruct W' as (d & r' & -> & Cd & _).
    cbn in E. injection E as <- _. unfold capital, small in *. lia.
  Qed.
  Lemma camel_words_words s : Forall camel_word (camel_words s).
  Proof.
    induction s as [|c s IH]; cbn; [constructor|]. destruct (is_upper c) eqn:U; [|exact IH]. constructor; [|exact IH].
    exists c, (take_lower s). split; [reflexivity|]. split; [apply is_upper_iff; exact U|]. clear. induction s as [|c s IH]; cbn; [constructor|].
    destruct (is_lower c) eqn:L; [|constructor]. constructor; [apply is_lower_iff; exact L|exact IH].
  Qed.

  Variable lo : Z -> Z.
  (** the words in small letters *)
  Definition lowered (w : list Z) : list Z := match w with c :: r => c + 32 :: r | [] => [] end.
  Lemma c2s_words ws : Forall camel_word ws -> forall i last sb, i + Z.of_nat (length ws) = last + 1 ->
    c2s_loop lo ws i last sb = Done (sb ++ joined (map lowered ws)).
  Proof.
    induction 1 as [|w ws W F IH]; intros i last sb L; [cbn; rewrite app_nil_r; reflexivity|].
    destruct W as (c & r & -> & Cc & Sr). cbn [c2s_loop]. cbn [length] in L.
    assert (E : string_of_rune (lower_rune lo c) = [c + 32]).
    { unfold lower_rune. rewrite (proj2 (is_upper_iff c) Cc). unfold capital in Cc. rewrite string_ascii by lia. reflexivity. }
    rewrite E. destruct ws as [|w' ws].
    - cbn [length] in L. replace (i <? last) with false by lia. cbn. rewrite <- app_assoc. reflexivity.
    - replace (i <? last) with true by (cbn [length] in L; lia). rewrite IH by (cbn [length] in *; lia).
      rewrite (string_ascii underscore) by (unfold underscore; lia). cbn [map]. rewrite (joined_cons (lowered (c :: r))) by discriminate.
      cbn [lowered]. rewrite <- !app_assoc. reflexivity.
  Qed.
  Lemma c2s_total s : s <> [] -> exists ws, Forall camel_word ws /\ camel_to_snake up lo s = Done (joined (map lowered ws)).
  Proof.
    intros N. destruct s as [|c s]; [congruence|]. unfold camel_to_snake. eexists. split; [apply camel_words_words|].
    rewrite c2s_words; [reflexivity|apply camel_words_words|lia].
  Qed.
  Lemma c2s_concat w ws v : Forall camel_word (w :: ws) -> capitalised v w -> camel_to_snake up lo (v ++ concat ws) = Done (joined (map lowered (w :: ws))).
  Proof.
    intros F Cp. inversion F as [|? ? W F']; subst. destruct W as (c & r & -> & Cc & Sr). destruct v as [|c0 r0]; [inversion Cp|].
    unfold camel_to_snake. cbn [app].
    assert (E : string_of_rune (upper_rune up c0) ++ r0 = c :: r).
    { apply upper_rune_cap; [|exact Cp]. inversion Cp; subst; unfold small, capital in *; lia. }
    assert (E' : string_of_rune (upper_rune up c0) ++ r0 ++ concat ws = concat ((c :: r) :: ws)).
    { rewrite app_assoc, E. reflexivity. }
    rewrite E'. rewrite camel_words_concat by exact F. rewrite c2s_words; [reflexivity|exact F|lia].
  Qed.
  Lemma camel_words_app_other x c : ~ capital c -> ~ small c -> camel_words (x ++ [c]) = camel_words x.
  Proof.
    intros Nc Ns. assert (U : is_upper c = false) by (destruct (is_upper c) eqn:U; [apply is_upper_iff in U; contradiction|reflexivity]).
    assert (Lw : is_lower c = false) by (destruct (is_lower c) eqn:U'; [apply is_lower_iff in U'; contradiction|reflexivity]).
    assert (T : forall y, take_lower (y ++ [c]) = take_lower y).
    { induction y as [|d y IH]; cbn; [rewrite Lw; reflexivity|]. rewrite IH. reflexivity. }
    induction x as [|d x IH]; cbn; [rewrite U; reflexivity|]. rewrite IH, T. reflexivity.
  Qed.
  Lemma c2s_app_other x c : x <> [] -> ~ capital c -> ~ small c -> camel_to_snake up lo (x ++ [c]) = camel_to_snake up lo x.
  Proof.
    intros N Nc Ns. destruct x as [|d x]; [congruence|]. unfold camel_to_snake. cbn [app]. rewrite app_assoc, camel_words_app_other by assumption. reflexivity.
  Qed.
End Case.
Lemma lowered_cap w : snake_word w -> exists v, capitalised w v /\ camel_word v /\ lowered v = w.
Proof.
  intros (N & F). destruct w as [|c r]; [congruence|]. inversion F as [|? ? Sc Sr]; subst. exists (c - 32 :: r). split; [constructor; exact Sc|].
  unfold small in Sc. split; [exists (c - 32), r; split; [reflexivity|]; split; [unfold capital; lia|exact Sr]|]. cbn. f_equal. lia.
Qed.
Lemma cap_lowered v : camel_word v -> capitalised (lowered v) v /\ snake_word (lowered v).
Proof.
  intros (c & r & -> & Cc & Sr). cbn. unfold capital in Cc. assert (Sm : small (c + 32)) by (unfold small; lia). split.
  - replace c with (c + 32 - 32) at 2 by lia. constructor. exact Sm.
  - split; [discriminate|]. constructor; assumption.
Qed.
Lemma snake_word_plain w : snake_word w -> ~ In 95 w.
Proof. intros (_ & F) I. rewrite Forall_forall in F. apply F in I. unfold small in I. lia. Qed.
