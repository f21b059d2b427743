(** Torn JSON files: bytes of a document cut short anywhere, and writes that fail. *)
From Verif Require Import Base GoMap Iter IterSpec IterProofs Readers ReaderSpec ReaderProofs Stream Writer WriterProofs Union Rest Json JsonLex JsonParse JsonWrite JsonSim JsonSpec JsonLexProofs JsonTokProofs JsonParseProofs JsonDocProofs JsonApiProofs JsonWriteProofs JsonFaultSpec JsonFaultProofs2.
From Coq Require Import ZifyBool.
Open Scope Z_scope.

Lemma cut_split text : forall bs, cut_short bs (utf8 text) ->
  exists p r q rest, text = p ++ r :: q /\ bs = utf8 p ++ rest /\ cut_short rest (encode r).
Proof.
  induction text as [|r text IH]; intros bs (z & NZ & E).
  - destruct bs; [destruct z; [congruence|discriminate]|discriminate].
  - unfold utf8 in E. cbn [flat_map] in E. fold (utf8 text) in E.
    assert (D : (exists y, y <> [] /\ encode r = bs ++ y) \/ (exists bs', bs = encode r ++ bs' /\ utf8 text = bs' ++ z)).
    { clear - E. revert bs E. induction (encode r) as [|a l IH]; intros bs E; cbn in E; [right; exists bs; auto|].
      destruct bs as [|b bs]; [left; exists (a :: l); split; [discriminate|reflexivity]|]. cbn in E. injection E as -> E.
      destruct (IH _ E) as [(y & NY & ->)|(bs' & -> & E2)]; [left; exists y; auto|right; exists bs'; auto]. }
    destruct D as [(y & NY & EY)|(bs' & -> & E2)].
    + exists [], r, text, bs. split; auto. split; auto. exists y; auto.
    + destruct (IH bs') as (p & r' & q & rest & -> & -> & C); [exists z; auto|]. exists (r :: p), r', q, rest. split; auto. split; auto. unfold utf8. cbn [flat_map]. rewrite app_assoc. reflexivity.
Qed.
Lemma part_rejected r rest : scalar r -> cut_short rest (encode r) -> forall p c rest', ReaderSpec.accepts p c -> rest <> p ++ rest'.
Proof.
  intros SC (y & NY & E) p c rest' A ->. unfold scalar in SC. unfold encode in E. rewrite <- app_assoc in E.
  assert (LY : (0 < length y)%nat) by (destruct y; [congruence|cbn; lia]).
  assert (B : 0 <= r / 64 < 17408 /\ 0 <= r / 4096 < 273 /\ 0 <= r / 262144 < 5).
  { repeat split; try (apply Z.div_pos; lia); apply Z.div_lt_upper_bound; lia. }
  assert (B64 : r < 2048 -> r / 64 < 32) by (intros; apply Z.div_lt_upper_bound; lia).
  assert (B40 : r < 65536 -> r / 4096 < 16) by (intros; apply Z.div_lt_upper_bound; lia).
  revert E. destruct (Z.ltb_spec r 128); [|destruct (Z.ltb_spec r 2048); [|destruct (Z.ltb_spec r 65536)]]; intros E.
  all: pose proof (f_equal (hd 0) E) as E1; pose proof (f_equal (@length Z) E) as E2; rewrite !app_length in E2; destruct A; cbn [hd app length] in E1, E2; lia.
Qed.
Lemma part_bytes r : scalar r -> Forall byte (encode r).
Proof.
  intros SC. unfold scalar in SC. unfold encode, byte.
  pose proof (Z.mod_pos_bound r 64 ltac:(lia)). pose proof (Z.mod_pos_bound (r / 64) 64 ltac:(lia)). pose proof (Z.mod_pos_bound (r / 4096) 64 ltac:(lia)).
  assert (B : 0 <= r / 64 /\ 0 <= r / 4096 /\ 0 <= r / 262144 < 5).
  { repeat split; try (apply Z.div_pos; lia); apply Z.div_lt_upper_bound; lia. }
  assert (B64 : r < 2048 -> r / 64 < 32) by (intros; apply Z.div_lt_upper_bound; lia).
  assert (B40 : r < 65536 -> r / 4096 < 16) by (intros; apply Z.div_lt_upper_bound; lia).
  destruct (Z.ltb_spec r 128); [|destruct (Z.ltb_spec r 2048); [|destruct (Z.ltb_spec r 65536)]]; repeat constructor; lia.
Qed.

Lemma reads_cut {S} (rd : reader S) s text bs e : Forall scalar text -> cut_short bs (utf8 text) -> holds rd s bs e ->
  exists p e', cut_short p text /\ reads rd s p e' /\ (e' = translate e \/ e' = InvalidUTF8).
Proof.
  intros F C H. destruct (cut_split text bs C) as (p & r & q & rest & -> & -> & CR).
  apply Forall_app in F as [FP FR]. inversion FR as [|? ? SR _]; subst.
  assert (CP : cut_short p (p ++ r :: q)) by (exists (r :: q); split; [discriminate|reflexivity]).
  destruct rest as [|b rest].
  - exists p, (translate e). split; auto. split; auto. rewrite app_nil_r in H. apply (runes_encode rd p s e FP H).
  - pose proof CR as (y & NY & EY).
    destruct (runes_invalid rd (map encode p) p (b :: rest) s e) as (e' & Y & D); auto.
    + clear - FP. induction FP as [|x l Hx FP IH]; cbn; constructor; auto. apply encode_accepts; auto.
    + pose proof (part_bytes r SR) as FB. rewrite EY in FB. apply Forall_app in FB. tauto.
    + discriminate.
    + apply (part_rejected r (b :: rest) SR CR).
    + rewrite <- flat_map_concat_map. exact H.
    + exists p, e'. split; auto. split; auto. destruct D as [->|(-> & N & _)]; auto. left. destruct e; auto; congruence.
Qed.

Theorem parse_torn {S} (rd : reader S) s text t bs e : document text t -> Forall scalar text -> cut_short bs (utf8 text) -> holds rd s bs e ->
  exists e', settles (Parse rd s) (zv, Some e') /\ e' <> EOI /\ (e <> EOF -> e <> EOI -> e' = e \/ e' = InvalidUTF8).
Proof.
  intros D F C H. destruct (reads_cut rd s text bs e F C H) as (p & e' & CP & RD & O).
  destruct (parse_cut rd s text t p e' D CP RD) as (e2 & P & N & PE). exists e2. split; auto. split; auto. intros N1 N2.
  destruct O as [-> | ->].
  - left. destruct e; try congruence; cbn in *; apply PE; auto.
  - right. apply PE. discriminate.
Qed.

(** ** What Write leaves behind *)
Lemma write_kept {S} (dst : iowriter S) contents ok : keeps dst contents ok -> forall rs s, ok s -> Forall scalar rs ->
  exists oe s' bs more, write (rune_writer dst) s rs = (oe, s') /\ ok s' /\ contents s' = contents s ++ bs /\ utf8 rs = bs ++ more /\ (oe = None -> more = []).
Proof.
  intros K. induction rs as [|r rs IH]; intros s O F; cbn [write].
  - exists None, s, [], []. rewrite app_nil_r. auto.
  - inversion F as [|? ? SR FR]; subst. unfold rune_writer at 1, write_bytes, string_of_rune. rewrite (is_scalar_spec r SR).
    destruct (dst s (encode r)) as [[n oe] s1] eqn:E. destruct (K _ _ _ _ _ O E) as (O1 & NB & CS).
    assert (U : utf8 (r :: rs) = firstn (Z.to_nat n) (encode r) ++ skipn (Z.to_nat n) (encode r) ++ utf8 rs).
    { unfold utf8. cbn [flat_map]. rewrite app_assoc, firstn_skipn. reflexivity. }
    destruct oe as [e|].
    + exists (Some e), s1, (firstn (Z.to_nat n) (encode r)), (skipn (Z.to_nat n) (encode r) ++ utf8 rs). repeat split; auto. discriminate.
    + destruct (Z.ltb_spec n (Z.of_nat (length (encode r)))) as [L|L].
      * exists (Some errNotWritten), s1, (firstn (Z.to_nat n) (encode r)), (skipn (Z.to_nat n) (encode r) ++ utf8 rs). repeat split; auto. discriminate.
      * destruct (IH s1 O1 FR) as (oe2 & s2 & bs & more & -> & O2 & C2 & U2 & N2). exists oe2, s2, (encode r ++ bs), more. split; auto. split; auto.
        rewrite firstn_all2 in CS by lia. rewrite C2, CS, <- app_assoc. split; auto. split; auto. unfold utf8. cbn [flat_map]. fold (utf8 rs). rewrite U2, app_assoc. reflexivity.
Qed.

Lemma error_write_keeps count e : keeps (error_write count e) (fun out => out) (fun out => Z.of_nat (length out) <= Z.max 0 count).
Proof.
  intros s p n oe s' O H. unfold error_write in H. destruct (Z.eqb_spec (Z.of_nat (length s)) count) as [E|E].
  - injection H as <- <- <-. split; auto. split; [lia|]. rewrite app_nil_r. reflexivity.
  - destruct (Z.ltb_spec count 0) as [N|N].
    + injection H as <- <- <-. split; auto. split; [lia|]. rewrite app_nil_r. reflexivity.
    + injection H as <- <- <-. split; [|split; [lia|reflexivity]]. rewrite app_length, firstn_length. lia.
Qed.
Lemma error_write_runes count e : 0 <= count -> forall rs out, Forall scalar rs -> Z.of_nat (length out) <= count ->
  exists oe, write (rune_writer (error_write count e)) out rs = (oe, firstn (Z.to_nat count) (out ++ utf8 rs)) /\
    (oe = None <-> Z.of_nat (length (out ++ utf8 rs)) <= count) /\ (oe = None \/ oe = Some e \/ oe = Some errNotWritten).
Proof.
  intros HC. induction rs as [|r rs IH]; intros out F L; cbn [write].
  - exists None. unfold utf8. cbn [flat_map]. rewrite app_nil_r, firstn_all2 by lia. split; auto. split; [split; auto|auto].
  - inversion F as [|? ? SR FR]; subst. unfold rune_writer at 1, write_bytes, string_of_rune. rewrite (is_scalar_spec r SR).
    rewrite (error_write_exact count e out (encode r) HC L).
    assert (LE : (0 < length (encode r))%nat) by (destruct (encode_accepts r SR); cbn; lia).
    assert (U : utf8 (r :: rs) = encode r ++ utf8 rs) by reflexivity. rewrite U.
    destruct (Z.eqb_spec (Z.of_nat (length out)) count) as [E|E].
    + exists (Some e). split; [|split; [split; [discriminate|rewrite !app_length; lia]|auto]].
      f_equal. rewrite !firstn_app. replace (Z.to_nat count - length out)%nat with 0%nat by lia. rewrite !firstn_O. reflexivity.
    + destruct (Z.ltb_spec (Z.min (Z.of_nat (length (encode r))) (count - Z.of_nat (length out))) (Z.of_nat (length (encode r)))) as [B|B].
      * exists (Some errNotWritten). split; [|split; [split; [discriminate|rewrite !app_length; lia]|auto]].
        f_equal. rewrite app_assoc, (firstn_app _ (out ++ encode r)). replace (Z.to_nat count - length (out ++ encode r))%nat with 0%nat by (rewrite app_length; lia). rewrite firstn_O, app_nil_r. reflexivity.
      * rewrite (firstn_all2 (out ++ encode r)) by (rewrite app_length; lia).
        destruct (IH (out ++ encode r) FR) as (oe & W & N & O); [rewrite app_length; lia|]. exists oe. rewrite W, app_assoc. auto.
Qed.

Lemma strict_lenient b : (forall ts t, gval b ts t -> gval false ts t) /\ (forall seen ts m, gmembers b seen ts m -> gmembers false seen ts m) /\ (forall ts l, gelems b ts l -> gelems false ts l).
Proof. apply grammar_ind; intros; econstructor; eauto. Qed.
Lemma render_document t : writable t -> rcontainer t -> document (render t) (tree_of t).
Proof.
  intros W C. destruct (render_strict t W C) as (toks & G & L). exists toks. split; [apply lexed_tokenized; auto|]. split; [eapply strict_lenient; eauto|].
  split; [destruct t; cbn in *; auto|].
  destruct t; cbn [rcontainer] in C; try contradiction; cbn [render app]; rewrite app_comm_cons, last_last; unfold wsc; cbn; intuition discriminate.
Qed.
(** every RFC 8259 document is one *)
Lemma strict_document text toks t : lexed text toks [] -> gval true toks t -> container t -> ~ wsc (last text 0) -> document text t.
Proof. intros L G C N. exists toks. split; [apply lexed_tokenized; auto|]. split; [eapply strict_lenient; eauto|auto]. Qed.
