(** More on C09-C12: nil readers, and OfStringAsRunes. *)
From Verif Require Import Base Iter IterSpec IterProofs IterGen IterGenProofs Readers ReaderSpec Json JsonSpec JsonWrite JsonWriteProofs PropsIter PropsReader.
From Coq Require Import ZifyBool.
Open Scope Z_scope.

Lemma stuck_done {S T} `{Zero T} (f : stepfn S T) s e : (forall fuel, f fuel s = Done ((zv, Some e), s)) -> stuck f s e.
Proof. intros E. cofix C. econstructor; [|exact C]. exists 0%nat. intros. apply E. Qed.

(** Without a reader there is nothing to iterate, and no panic. *)
Theorem C09_nil_reader {S} (rd : reader S) s : yields (next (bytes_gen rd)) (ofIter (bytes_init_nil s)) [] EOI.
Proof.
  eexists. split; [constructor|]. econstructor.
  - exists 0%nat. intros. unfold next. cbn. reflexivity.
  - apply stuck_done. intros. reflexivity.
Qed.
Theorem C11_nil_reader {S} (rd : reader S) s : yields (next (runes_gen rd)) (ofIter (runes_init_nil s)) [] EOI.
Proof.
  eexists. split; [constructor|]. econstructor.
  - exists 0%nat. intros. unfold next. cbn. reflexivity.
  - apply stuck_done. intros. reflexivity.
Qed.
Theorem C12_nil_reader {S} (rd : reader S) s : yields (next (lines_gen (runes_gen rd))) (ofIter (lines_init (runes_init_nil s))) [] EOI.
Proof.
  eexists. split; [constructor|]. econstructor.
  - exists 1%nat. intros [|m] M; [lia|]. unfold next. cbn. reflexivity.
  - apply stuck_done. intros. reflexivity.
Qed.

Lemma enc2 b0 b1 : 194 <= b0 <= 223 -> 128 <= b1 <= 191 -> let r := (b0 - 192) * 64 + (b1 - 128) in scalar r /\ encode r = [b0; b1].
Proof.
  intros A B r. assert (R : 128 <= r < 2048) by (unfold r; lia).
  assert (D : r / 64 = b0 - 192) by (symmetry; apply Z.div_unique with (b1 - 128); unfold r; lia).
  assert (M : r mod 64 = b1 - 128) by (symmetry; apply Z.mod_unique with (b0 - 192); unfold r; lia).
  split; [unfold scalar; lia|]. unfold encode. destruct (Z.ltb_spec r 128); [lia|]. destruct (Z.ltb_spec r 2048); [|lia]. rewrite D, M. repeat f_equal; lia.
Qed.
Lemma enc3 b0 b1 b2 : 224 <= b0 <= 239 -> 128 <= b1 <= 191 -> 128 <= b2 <= 191 -> let r := (b0 - 224) * 4096 + (b1 - 128) * 64 + (b2 - 128) in
  2048 <= r -> ~ (55296 <= r <= 57343) -> scalar r /\ encode r = [b0; b1; b2].
Proof.
  intros A B C r R1 R2. assert (R : 2048 <= r < 65536) by (unfold r in *; lia).
  assert (D : r / 4096 = b0 - 224) by (symmetry; apply Z.div_unique with ((b1 - 128) * 64 + (b2 - 128)); unfold r; lia).
  assert (D2 : r / 64 = (b0 - 224) * 64 + (b1 - 128)) by (symmetry; apply Z.div_unique with (b2 - 128); unfold r; lia).
  assert (M : r mod 64 = b2 - 128) by (symmetry; apply Z.mod_unique with ((b0 - 224) * 64 + (b1 - 128)); unfold r; lia).
  assert (M2 : (r / 64) mod 64 = b1 - 128) by (rewrite D2; symmetry; apply Z.mod_unique with (b0 - 224); lia).
  split; [unfold scalar; lia|]. unfold encode. destruct (Z.ltb_spec r 128); [lia|]. destruct (Z.ltb_spec r 2048); [lia|].
  destruct (Z.ltb_spec r 65536); [|lia]. rewrite D, M, M2. repeat f_equal; lia.
Qed.
Lemma enc4 b0 b1 b2 b3 : 240 <= b0 <= 244 -> 128 <= b1 <= 191 -> 128 <= b2 <= 191 -> 128 <= b3 <= 191 ->
  let r := (b0 - 240) * 262144 + (b1 - 128) * 4096 + (b2 - 128) * 64 + (b3 - 128) in
  65536 <= r -> r <= 1114111 -> scalar r /\ encode r = [b0; b1; b2; b3].
Proof.
  intros A B C E r R1 R2.
  assert (D : r / 262144 = b0 - 240) by (symmetry; apply Z.div_unique with ((b1 - 128) * 4096 + (b2 - 128) * 64 + (b3 - 128)); unfold r; lia).
  assert (D1 : r / 4096 = (b0 - 240) * 64 + (b1 - 128)) by (symmetry; apply Z.div_unique with ((b2 - 128) * 64 + (b3 - 128)); unfold r; lia).
  assert (D2 : r / 64 = (b0 - 240) * 4096 + (b1 - 128) * 64 + (b2 - 128)) by (symmetry; apply Z.div_unique with (b3 - 128); unfold r; lia).
  assert (M : r mod 64 = b3 - 128) by (symmetry; apply Z.mod_unique with ((b0 - 240) * 4096 + (b1 - 128) * 64 + (b2 - 128)); unfold r; lia).
  assert (M1 : (r / 4096) mod 64 = b1 - 128) by (rewrite D1; symmetry; apply Z.mod_unique with (b0 - 240); lia).
  assert (M2 : (r / 64) mod 64 = b2 - 128) by (rewrite D2; symmetry; apply Z.mod_unique with ((b0 - 240) * 64 + (b1 - 128)); lia).
  split; [unfold scalar; lia|]. unfold encode. destruct (Z.ltb_spec r 128); [lia|]. destruct (Z.ltb_spec r 2048); [lia|].
  destruct (Z.ltb_spec r 65536); [lia|]. rewrite D, M, M1, M2. repeat f_equal; lia.
Qed.
(** the shape of an encoding, in terms of its bytes *)
Lemma enc_shape r : scalar r ->
  (r < 128 /\ encode r = [r]) \/
  (exists b0 b1, encode r = [b0; b1] /\ 194 <= b0 <= 223 /\ 128 <= b1 <= 191) \/
  (exists b0 b1 b2, encode r = [b0; b1; b2] /\ 224 <= b0 <= 239 /\ 128 <= b1 <= 191 /\ 128 <= b2 <= 191 /\
     let x := (b0 - 224) * 4096 + (b1 - 128) * 64 + (b2 - 128) in 2048 <= x /\ ~ (55296 <= x <= 57343)) \/
  (exists b0 b1 b2 b3, encode r = [b0; b1; b2; b3] /\ 240 <= b0 <= 244 /\ 128 <= b1 <= 191 /\ 128 <= b2 <= 191 /\ 128 <= b3 <= 191 /\
     let x := (b0 - 240) * 262144 + (b1 - 128) * 4096 + (b2 - 128) * 64 + (b3 - 128) in 65536 <= x <= 1114111).
Proof.
  intros (R & N). unfold encode. destruct (Z.ltb_spec r 128); [left; split; [lia|reflexivity]|].
  pose proof (Z.div_mod r 64 ltac:(lia)). pose proof (Z.mod_pos_bound r 64 ltac:(lia)).
  destruct (Z.ltb_spec r 2048).
  { right; left. do 2 eexists. split; [reflexivity|]. lia. }
  pose proof (Z.div_mod (r / 64) 64 ltac:(lia)). pose proof (Z.mod_pos_bound (r / 64) 64 ltac:(lia)).
  assert (D1 : r / 4096 = r / 64 / 64) by (rewrite Z.div_div by lia; reflexivity).
  destruct (Z.ltb_spec r 65536).
  { right; right; left. do 3 eexists. split; [reflexivity|]. rewrite D1. cbv zeta. lia. }
  pose proof (Z.div_mod (r / 64 / 64) 64 ltac:(lia)). pose proof (Z.mod_pos_bound (r / 64 / 64) 64 ltac:(lia)).
  assert (D2 : r / 262144 = r / 64 / 64 / 64) by (rewrite !Z.div_div by lia; reflexivity).
  right; right; right. do 4 eexists. split; [reflexivity|]. rewrite D1, D2. cbv zeta. lia.
Qed.

Lemma runes_step b0 s0 : 0 <= b0 -> 
  (exists r rest, scalar r /\ b0 :: s0 = encode r ++ rest) \/ ((forall r rest, scalar r -> b0 :: s0 <> encode r ++ rest) /\ runes_of (b0 :: s0) = 65533 :: runes_of s0).
Proof.
  intros P. cbn [runes_of]. unfold cont. destruct (Z.ltb_spec b0 128).
  { left. exists b0, s0. split; [unfold scalar; lia|]. unfold encode. destruct (Z.ltb_spec b0 128); [reflexivity|lia]. }
  destruct s0 as [|b1 s1].
  { right. split; [|reflexivity]. intros r rest R E. destruct (enc_shape r R) as [(L & Q)|[(x & y & Q & _)|[(x & y & z & Q & _)|(x & y & z & w & Q & _)]]];
      rewrite Q in E; try discriminate E. cbn [app] in E. injection E as E _. lia. }
  destruct ((194 <=? b0) && (b0 <=? 223) && ((128 <=? b1) && (b1 <=? 191))) eqn:T2.
  { left. destruct (enc2 b0 b1 ltac:(lia) ltac:(lia)) as (A & B). eexists _, s1. split; [exact A|]. rewrite B. reflexivity. }
  destruct s1 as [|b2 s2].
  { right. split; [|reflexivity]. intros r rest R E. destruct (enc_shape r R) as [(L & Q)|[(x & y & Q & Q1)|[(x & y & z & Q & _)|(x & y & z & w & Q & _)]]];
      rewrite Q in E; try discriminate E; cbn [app] in E; [injection E as E _; lia|]. injection E as E1 E2 _. lia. }
  cbv zeta. match goal with |- context [if ?c then _ else _] => destruct c eqn:T3 end.
  { left. destruct (enc3 b0 b1 b2 ltac:(lia) ltac:(lia) ltac:(lia) ltac:(lia) ltac:(lia)) as (A & B). eexists _, s2. split; [exact A|]. rewrite B. reflexivity. }
  destruct s2 as [|b3 s3].
  { right. split; [|reflexivity]. intros r rest R E. destruct (enc_shape r R) as [(L & Q)|[(x & y & Q & Q1)|[(x & y & z & Q & Q1 & Q2 & Q3 & Q4)|(x & y & z & w & Q & _)]]];
      rewrite Q in E; try discriminate E; cbn [app] in E; [injection E as E _; lia|injection E as E1 E2 _; lia|]. injection E as E1 E2 E3 _. subst. cbv zeta in Q4. lia. }
  match goal with |- context [if ?c then _ else _] => destruct c eqn:T4 end.
  { left. destruct (enc4 b0 b1 b2 b3 ltac:(lia) ltac:(lia) ltac:(lia) ltac:(lia) ltac:(lia) ltac:(lia)) as (A & B). eexists _, s3. split; [exact A|]. rewrite B. reflexivity. }
  right. split; [|reflexivity]. intros r rest R E.
  destruct (enc_shape r R) as [(L & Q)|[(x & y & Q & Q1)|[(x & y & z & Q & Q1 & Q2 & Q3 & Q4)|(x & y & z & w & Q & Q1 & Q2 & Q3 & Q4 & Q5)]]];
    rewrite Q in E; cbn [app] in E; [injection E as E _; lia|injection E as E1 E2 _; lia| |].
  - injection E as E1 E2 E3 _. subst. cbv zeta in Q4. lia.
  - injection E as E1 E2 E3 E4 _. subst. cbv zeta in Q5. lia.
Qed.

Lemma decodes_runes_of : forall n bs, (length bs <= n)%nat -> Forall byte bs -> decodes bs (runes_of bs).
Proof.
  induction n as [|n IH]; intros bs L F.
  - destruct bs; [constructor|cbn in L; lia].
  - destruct bs as [|b0 s0]; [constructor|]. inversion F as [|? ? F1 F2]; subst. destruct (runes_step b0 s0 ltac:(unfold byte in *; lia)) as [(r & rest & R & E)|(N & E)].
    + rewrite E. rewrite runes_of_encode by auto. apply decodes_rune; auto. apply IH.
      * assert (LE : (length (b0 :: s0) = length (encode r) + length rest)%nat) by (rewrite E, app_length; auto). 
        assert (1 <= length (encode r))%nat by (unfold encode; repeat match goal with |- context [if ?c then _ else _] => destruct c end; cbn; lia). cbn in L, LE. lia.
      * rewrite E in F. apply Forall_app in F as (_ & F). exact F.
    + rewrite E. apply decodes_bad; auto. apply IH; auto. cbn in L. lia.
Qed.

Lemma encode_prefix r1 r2 a b : scalar r1 -> scalar r2 -> encode r1 ++ a = encode r2 ++ b -> r1 = r2 /\ a = b.
Proof.
  intros S1 S2 E. assert (r1 = r2).
  { apply (f_equal runes_of) in E. rewrite !runes_of_encode in E by auto. congruence. }
  subst. split; auto. eapply app_inv_head; eauto.
Qed.
Lemma encode_ne r : encode r <> [].
Proof. unfold encode. repeat match goal with |- context [if ?c then _ else _] => destruct c end; discriminate. Qed.
Lemma decodes_fun bs o1 o2 : decodes bs o1 -> decodes bs o2 -> o1 = o2.
Proof.
  intros D. revert o2. induction D as [|r rest out R D IH|b rest out N D IH]; intros o2 D2.
  - inversion D2; auto. exfalso. destruct (encode r) eqn:E; [apply (encode_ne r E)|discriminate].
  - inversion D2 as [E|r' rest' out' R' D' E|b rest' out' N' D' E]; subst.
    + exfalso. destruct (encode r) eqn:Q; [apply (encode_ne r Q)|discriminate].
    + destruct (encode_prefix _ _ _ _ R' R E) as (-> & ->). f_equal. auto.
    + exfalso. eapply N'; eauto.
  - inversion D2 as [E|r' rest' out' R' D' E|b' rest' out' N' D' E]; subst.
    + exfalso. eapply N; eauto.
    + f_equal. auto.
Qed.

(** OfStringAsRunes of any string: the encoded runes, and U+FFFD for each byte at which no encoding starts; never an error. *)
Theorem C11_of_string bs out : Forall byte bs -> (yields (next (slice_gen (runes_of bs))) (ofIter 0%nat) out EOI <-> decodes bs out).
Proof.
  intros F. assert (D : decodes bs (runes_of bs)) by (eapply decodes_runes_of; eauto). split; intros H.
  - destruct (C04_behaviour_unique _ _ _ _ _ _ H (C04_of_slice (runes_of bs))) as (-> & _). exact D.
  - rewrite (decodes_fun _ _ _ H D). apply C04_of_slice.
Qed.
(** Finding: on a string that is not UTF-8, OfStringAsRunes and StringAsRunesIterGen differ. *)
Theorem C11_string_functions_refuted :
  yields (next (slice_gen (runes_of [65; 255; 66]))) (ofIter 0%nat) [65; 65533; 66] EOI /\
  yields (next (runes_gen string_reader)) (ofIter (runes_init [65; 255; 66])) [65] InvalidUTF8.
Proof.
  split; [apply (C04_of_slice [65; 65533; 66])|]. 
  eexists. split; [econstructor; [exists 0%nat; intros; reflexivity|constructor]|]. econstructor.
  - exists 0%nat. intros. reflexivity.
  - apply stuck_done. intros. reflexivity.
Qed.
Example C11_decodes_ex : decodes [226; 130; 172; 192; 128; 65] [8364; 65533; 65533; 65].
Proof. change [8364; 65533; 65533; 65] with (runes_of [226; 130; 172; 192; 128; 65]). eapply decodes_runes_of; [apply le_n|]. repeat constructor; cbv; discriminate. Qed.
