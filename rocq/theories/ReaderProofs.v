(** Proofs about readers, UTF-8 decoding and lines. *)
From Verif Require Import Base IterSpec Iter IterProofs IterGenProofs Readers ReaderSpec.
From Coq Require Import ZifyBool.
Open Scope Z_scope.

(** ** Byte reader *)
Lemma bytes_emits {S} (rd : reader S) s bs e s' :
  reads1 rd s bs e s' ->
  forall b0, exists b1 s1, emits (bytes_gen rd) (false, b0, s) bs (false, b1, s1)
                           /\ rread rd s1 1 = (([], Some e), s').
Proof.
  induction 1 as [s e s' R|s b s1 bs e s' R Rs IH]; intros b0.
  - exists b0, s. split; auto. constructor.
  - destruct (IH b) as (b1 & s2 & E & Rd). exists b1, s2. split; auto.
    econstructor; [|exact E]. exists 0%nat. intros m _. unfold bytes_gen. rewrite R. reflexivity.
Qed.

Lemma bytes_yields {S} (rd : reader S) s bs e s' :
  reads1 rd s bs e s' ->
  yields (next (bytes_gen rd)) (ofIter (bytes_init s)) bs (final_error rd e s').
Proof.
  intros R. destruct (bytes_emits rd s bs e s' R 0) as (b1 & s1 & E & Rd).
  assert (F : exists st, fails (bytes_gen rd) (false, b1, s1) (final_error rd e s') st).
  { unfold fails, returns, bytes_gen, final_error, translate.
    destruct (rclose rd) as [c|] eqn:C.
    - destruct (c s') as [[ce|] s2] eqn:Cs.
      + destruct e; eexists; exists 0, 0%nat; intros m _; rewrite Rd; try rewrite Cs; reflexivity.
      + destruct e; eexists; exists 0, 0%nat; intros m _; rewrite Rd; try rewrite Cs; reflexivity.
    - destruct e; eexists; exists 0, 0%nat; intros m _; rewrite Rd; reflexivity. }
  destruct F as [st F]. eapply ofIter_yields; eauto.
Qed.

Lemma bytes_closes {S} (rd : reader S) s bs e s' :
  reads1 rd s bs e s' ->
  exists st b, emits (bytes_gen rd) (bytes_init s) bs st /\
    (forall fuel, bytes_gen rd fuel st = Done ((0, Some (final_error rd e s')), (true, b, after_close rd e s'))) /\
    (forall fuel, bytes_gen rd fuel (true, b, after_close rd e s') = Done ((0, Some EOI), (true, b, after_close rd e s'))).
Proof.
  intros R. destruct (bytes_emits rd s bs e s' R 0) as (b1 & s1 & E & Rd). exists (false, b1, s1), b1. split; [exact E|].
  split; [|reflexivity]. intros fuel. unfold bytes_gen, final_error, translate, after_close. rewrite Rd.
  destruct (rclose rd) as [c|] eqn:C; destruct e; try reflexivity; destruct (c s') as [[ce|] s2] eqn:Cs; reflexivity.
Qed.

(** ** Bits *)
Lemma land_shift_low a b k : 0 <= k -> 0 <= b < 2 ^ k -> Z.land (Z.shiftl a k) b = 0.
Proof.
  intros Hk Hb. apply Z.bits_inj'. intros n Hn. rewrite Z.land_spec, Z.bits_0.
  destruct (Z.lt_ge_cases n k).
  - rewrite Z.shiftl_spec_low by lia. reflexivity.
  - replace b with (b mod 2 ^ k) by (apply Z.mod_small; lia). rewrite Z.mod_pow2_bits_high by lia.
    apply andb_false_r.
Qed.

Lemma lor_shift a b k : 0 <= k -> 0 <= b < 2 ^ k -> Z.lor (Z.shiftl a k) b = a * 2 ^ k + b.
Proof.
  intros Hk Hb. pose proof (land_shift_low a b k Hk Hb) as L.
  rewrite <- Z.lxor_lor by exact L. rewrite <- Z.add_nocarry_lxor by exact L.
  rewrite Z.shiftl_mul_pow2 by lia. reflexivity.
Qed.

Lemma byte_sweep (P : Z -> bool) :
  forallb P (map Z.of_nat (seq 0 256)) = true -> forall b, byte b -> P b = true.
Proof.
  intros A b Hb. rewrite forallb_forall in A. apply A. apply in_map_iff. exists (Z.to_nat b).
  unfold byte in Hb. split; [lia|]. apply in_seq. lia.
Qed.

Definition extra_ok (b : Z) : bool :=
  match extra_bytes b with
  | Some 0%nat => b <? 128
  | Some 1%nat => (192 <=? b) && (b <? 224) && (Z.land b 31 =? b - 192)
  | Some 2%nat => (224 <=? b) && (b <? 240) && (Z.land b 15 =? b - 224)
  | Some 3%nat => (240 <=? b) && (b <? 248) && (Z.land b 7 =? b - 240)
  | Some _ => false
  | None => ((128 <=? b) && (b <? 192)) || (248 <=? b)
  end.
Lemma extra_bytes_ok b : byte b -> extra_ok b = true.
Proof. apply byte_sweep. vm_compute. reflexivity. Qed.

Definition cont_ok (b : Z) : bool :=
  Bool.eqb (Z.land b 192 =? 128) ((128 <=? b) && (b <? 192)) &&
  (negb (Z.land b 192 =? 128) || (Z.land b 63 =? b - 128)).
Lemma cont_bytes_ok b : byte b -> cont_ok b = true.
Proof. apply byte_sweep. vm_compute. reflexivity. Qed.

Lemma cont_true b : byte b -> (Z.land b 192 =? 128) = true -> 128 <= b < 192 /\ Z.land b 63 = b - 128.
Proof.
  intros Hb C. pose proof (cont_bytes_ok b Hb) as K. unfold cont_ok in K. rewrite C in K. lia.
Qed.
Lemma cont_false b : byte b -> (Z.land b 192 =? 128) = false -> ~ (128 <= b < 192).
Proof.
  intros Hb C. pose proof (cont_bytes_ok b Hb) as K. unfold cont_ok in K. rewrite C in K. lia.
Qed.

Lemma extra_0 b : byte b -> (extra_bytes b = Some 0%nat <-> b < 128).
Proof.
  intros Hb. pose proof (extra_bytes_ok b Hb) as K. unfold extra_ok in K.
  destruct (extra_bytes b) as [[|[|[|[|?]]]]|]; split; intros; try discriminate; try lia; auto.
Qed.
Lemma extra_1 b : byte b -> extra_bytes b = Some 1%nat -> 192 <= b < 224 /\ Z.land b 31 = b - 192.
Proof. intros Hb E. pose proof (extra_bytes_ok b Hb) as K. unfold extra_ok in K. rewrite E in K. lia. Qed.
Lemma extra_2 b : byte b -> extra_bytes b = Some 2%nat -> 224 <= b < 240 /\ Z.land b 15 = b - 224.
Proof. intros Hb E. pose proof (extra_bytes_ok b Hb) as K. unfold extra_ok in K. rewrite E in K. lia. Qed.
Lemma extra_3 b : byte b -> extra_bytes b = Some 3%nat -> 240 <= b < 248 /\ Z.land b 7 = b - 240.
Proof. intros Hb E. pose proof (extra_bytes_ok b Hb) as K. unfold extra_ok in K. rewrite E in K. lia. Qed.
Lemma extra_N b : byte b -> extra_bytes b = None -> 128 <= b < 192 \/ 248 <= b.
Proof. intros Hb E. pose proof (extra_bytes_ok b Hb) as K. unfold extra_ok in K. rewrite E in K. lia. Qed.
Lemma extra_range b n : byte b -> extra_bytes b = Some n -> (n <= 3)%nat.
Proof.
  intros Hb E. pose proof (extra_bytes_ok b Hb) as K. unfold extra_ok in K. rewrite E in K.
  destruct n as [|[|[|[|?]]]]; try lia; discriminate.
Qed.

(** ** Accepted encodings *)
Lemma accepts_bytes p r : accepts p r -> Forall byte p.
Proof. destruct 1; repeat constructor; unfold byte; lia. Qed.

Lemma accepts_range p r : accepts p r -> 0 <= r <= 1114111.
Proof. destruct 1; lia. Qed.

Lemma encode_accepts r : scalar r -> accepts (encode r) r.
Proof.
  intros [R _]. unfold encode.
  destruct (Z.ltb_spec r 128); [apply acc1; lia|].
  destruct (Z.ltb_spec r 2048).
  { replace r with (r / 64 * 64 + r mod 64) at 3 by (rewrite (Z.div_mod r 64) at 3; lia).
    apply acc2. split; [apply Z.div_pos; lia|apply Z.div_lt_upper_bound; lia]. apply Z.mod_pos_bound; lia. }
  destruct (Z.ltb_spec r 65536).
  { assert (E : r = r / 4096 * 4096 + r / 64 mod 64 * 64 + r mod 64).
    { pose proof (Z.div_mod r 64). pose proof (Z.div_mod (r / 64) 64). rewrite Z.div_div in * by lia.
      change (64 * 64) with 4096 in *. lia. }
    rewrite E at 4. apply acc3; try (apply Z.mod_pos_bound; lia).
    split; [apply Z.div_pos; lia|apply Z.div_lt_upper_bound; lia]. }
  assert (E : r = r / 262144 * 262144 + r / 4096 mod 64 * 4096 + r / 64 mod 64 * 64 + r mod 64).
  { pose proof (Z.div_mod r 64). pose proof (Z.div_mod (r / 64) 64). pose proof (Z.div_mod (r / 4096) 64).
    rewrite Z.div_div in * by lia. change (64 * 64) with 4096 in *. change (4096 * 64) with 262144 in *. lia. }
  rewrite E at 5. apply acc4; try (apply Z.mod_pos_bound; lia); try lia.
  split; [apply Z.div_pos; lia|apply Z.div_lt_upper_bound; lia].
Qed.

Lemma combine2 b b0 : 192 <= b < 224 -> Z.land b 31 = b - 192 -> 128 <= b0 < 192 -> Z.land b0 63 = b0 - 128 ->
  combine_bytes b [b0] = Some ((b - 192) * 64 + (b0 - 128)).
Proof. intros Hb L Hb0 L0. unfold combine_bytes. rewrite L, L0, lor_shift; change (2 ^ 6) with 64; auto; lia. Qed.

Lemma lor_assoc_shift2 a b c :
  0 <= b < 64 -> 0 <= c < 64 ->
  Z.lor (Z.lor (Z.shiftl a 12) (Z.shiftl b 6)) c = a * 4096 + b * 64 + c.
Proof.
  intros Hb Hc. rewrite <- Z.lor_assoc. rewrite (lor_shift b c 6) by (change (2 ^ 6) with 64; lia).
  change (2 ^ 6) with 64. rewrite lor_shift by (change (2 ^ 12) with 4096; lia). change (2 ^ 12) with 4096. lia.
Qed.

Lemma lor_assoc_shift3 a b c d :
  0 <= b < 64 -> 0 <= c < 64 -> 0 <= d < 64 ->
  Z.lor (Z.lor (Z.lor (Z.shiftl a 18) (Z.shiftl b 12)) (Z.shiftl c 6)) d
  = a * 262144 + b * 4096 + c * 64 + d.
Proof.
  intros Hb Hc Hd. rewrite <- !Z.lor_assoc. rewrite (lor_shift c d 6) by (change (2 ^ 6) with 64; lia).
  change (2 ^ 6) with 64. rewrite (lor_shift b) by (change (2 ^ 12) with 4096; lia). change (2 ^ 12) with 4096.
  rewrite lor_shift by (change (2 ^ 18) with 262144; lia). change (2 ^ 18) with 262144. lia.
Qed.

Lemma combine3 b b0 b1 : Z.land b 15 = b - 224 -> 128 <= b0 < 192 -> Z.land b0 63 = b0 - 128 ->
  128 <= b1 < 192 -> Z.land b1 63 = b1 - 128 ->
  combine_bytes b [b0; b1] = Some ((b - 224) * 4096 + (b0 - 128) * 64 + (b1 - 128)).
Proof. intros L H0 L0 H1 L1. unfold combine_bytes. rewrite L, L0, L1, lor_assoc_shift2; auto; lia. Qed.

Lemma combine4 b b0 b1 b2 : Z.land b 7 = b - 240 -> 128 <= b0 < 192 -> Z.land b0 63 = b0 - 128 ->
  128 <= b1 < 192 -> Z.land b1 63 = b1 - 128 -> 128 <= b2 < 192 -> Z.land b2 63 = b2 - 128 ->
  combine_bytes b [b0; b1; b2] =
  let r := (b - 240) * 262144 + (b0 - 128) * 4096 + (b1 - 128) * 64 + (b2 - 128) in
  if 1114111 <? r then None else Some r.
Proof. intros L H0 L0 H1 L1 H2 L2. unfold combine_bytes. rewrite L, L0, L1, L2, lor_assoc_shift3; auto; lia. Qed.

(** ** One step of the rune reader over any bytes *)
Section Step.
  Context {S : Type}.
  Variable rd : reader S.

  Lemma holds_read s bs e n : holds rd s bs e -> (0 < n)%nat ->
    exists s', rread rd s n = ((firstn n bs, match bs with [] => Some e | _ => None end), s')
               /\ holds rd s' (skipn n bs) e.
  Proof. intros Hd Hn. inversion Hd; subst; auto. Qed.

  (** the outcome of decoding at the front of [bs] *)
  Definition front (bs : list Z) : option (Z * list Z) :=
    match bs with
    | [] => None
    | b :: bs1 =>
        match extra_bytes b with
        | None => None
        | Some 0%nat => Some (b, bs1)
        | Some eb =>
            let buf := firstn eb bs1 in
            if (length buf =? eb)%nat && forallb (fun x => Z.land x 192 =? 128) buf then
              match combine_bytes b buf with Some r => Some (r, skipn eb bs1) | None => None end
            else None
        end
    end.

  Lemma runes_end s e e0 : holds rd s [] e -> exists s', fails (runes_gen rd) (false, e0, s) (translate e) (true, Some (translate e), s').
  Proof.
    intros Hd. destruct (holds_read _ _ _ 1%nat Hd ltac:(lia)) as (s' & R & _). exists s', 0, 0%nat.
    intros m _. unfold runes_gen. rewrite R. reflexivity.
  Qed.

  Lemma runes_step s bs e e0 r bs' : holds rd s bs e -> front bs = Some (r, bs') ->
    exists s', returns (runes_gen rd) (false, e0, s) (r, None) (false, None, s') /\ holds rd s' bs' e.
  Proof.
    intros Hd F. destruct bs as [|b bs1]; [discriminate|].
    destruct (holds_read _ _ _ 1%nat Hd ltac:(lia)) as (s1 & R1 & H1). simpl in R1, H1.
    unfold front in F. destruct (extra_bytes b) as [eb|] eqn:X; [|discriminate].
    destruct eb as [|eb].
    - inversion F; subst. exists s1. split; auto. exists 0%nat. intros m _. unfold runes_gen. rewrite R1, X. reflexivity.
    - destruct ((length (firstn (Datatypes.S eb) bs1) =? Datatypes.S eb)%nat) eqn:Len; [|discriminate].
      destruct (forallb (fun x => Z.land x 192 =? 128) (firstn (Datatypes.S eb) bs1)) eqn:Cont; [|discriminate].
      destruct (combine_bytes b (firstn (Datatypes.S eb) bs1)) as [r'|] eqn:Cmb; [|discriminate].
      cbn [andb] in F. inversion F; subst.
      destruct (holds_read _ _ _ (Datatypes.S eb) H1 ltac:(lia)) as (s2 & R2 & H2).
      exists s2. split; auto. exists 0%nat. intros m _. unfold runes_gen. rewrite R1, X, R2, Len.
      destruct bs1 as [|b1 bs1]; [discriminate|]. cbn [negb orb]. rewrite Cont, Cmb. reflexivity.
  Qed.

  Lemma runes_bad s bs e e0 : holds rd s bs e -> bs <> [] -> front bs = None ->
    exists e' st', fails (runes_gen rd) (false, e0, s) e' st' /\
      (e' = InvalidUTF8 \/ (e' = e /\ e <> EOF /\ length bs = 1%nat)).
  Proof.
    intros Hd Hne F. destruct bs as [|b bs1]; [congruence|].
    destruct (holds_read _ _ _ 1%nat Hd ltac:(lia)) as (s1 & R1 & H1). simpl in R1, H1.
    unfold front in F. destruct (extra_bytes b) as [eb|] eqn:X.
    2: { exists InvalidUTF8, (true, Some InvalidUTF8, s1). split; auto. exists 0, 0%nat. intros m _.
         unfold runes_gen. rewrite R1, X. reflexivity. }
    destruct eb as [|eb]; [discriminate|].
    destruct (holds_read _ _ _ (Datatypes.S eb) H1 ltac:(lia)) as (s2 & R2 & H2).
    destruct ((length (firstn (Datatypes.S eb) bs1) =? Datatypes.S eb)%nat) eqn:Len.
    - destruct bs1 as [|b1 bs1]; [discriminate|]. exists InvalidUTF8, (false, Some InvalidUTF8, s2).
      split; auto. exists 0, 0%nat. intros m _. unfold runes_gen. rewrite R1, X, R2, Len. cbn [negb orb].
      destruct (forallb (fun x => Z.land x 192 =? 128) (firstn (Datatypes.S eb) (b1 :: bs1))) eqn:Cont; [|reflexivity].
      destruct (combine_bytes b (firstn (Datatypes.S eb) (b1 :: bs1))) as [r'|] eqn:Cmb; [discriminate|reflexivity].
    - destruct bs1 as [|b1 bs1].
      + exists (match e with EOF => InvalidUTF8 | _ => e end), (false, Some (match e with EOF => InvalidUTF8 | _ => e end), s2).
        split.
        * exists 0, 0%nat. intros m _. unfold runes_gen. rewrite R1, X, R2. simpl. destruct e; reflexivity.
        * destruct e; auto; right; repeat split; congruence.
      + exists InvalidUTF8, (false, Some InvalidUTF8, s2). split; auto.
        exists 0, 0%nat. intros m _. unfold runes_gen. rewrite R1, X, R2, Len. reflexivity.
  Qed.
End Step.

(** [front] finds exactly the accepted prefixes. *)
Lemma firstn_short {A} n (l : list A) : (length (firstn n l) =? n)%nat = true -> firstn n l ++ skipn n l = l /\ (n <= length l)%nat.
Proof. intros E. apply Nat.eqb_eq in E. rewrite firstn_length in E. split; [apply firstn_skipn|lia]. Qed.

Lemma front_sound bs r bs' : Forall byte bs -> front bs = Some (r, bs') -> exists p, bs = p ++ bs' /\ accepts p r.
Proof.
  intros B F. destruct bs as [|b bs1]; [discriminate|]. inversion B as [|? ? Hb B1]; subst.
  unfold front in F. destruct (extra_bytes b) as [eb|] eqn:X; [|discriminate].
  pose proof (extra_range b eb Hb X) as Rg.
  destruct eb as [|eb].
  { inversion F; subst. exists [r]. split; auto. apply acc1. apply extra_0 in X; auto. unfold byte in Hb; lia. }
  destruct ((length (firstn (Datatypes.S eb) bs1) =? Datatypes.S eb)%nat) eqn:Len; [|discriminate].
  cbn [andb] in F.
  destruct (forallb (fun x => Z.land x 192 =? 128) (firstn (Datatypes.S eb) bs1)) eqn:Cont; [|discriminate].
  destruct (combine_bytes b (firstn (Datatypes.S eb) bs1)) as [r'|] eqn:Cmb; [|discriminate].
  inversion F; subst r' bs'. clear F. exists (b :: firstn (Datatypes.S eb) bs1). split.
  { rewrite <- app_comm_cons. f_equal. symmetry. apply firstn_skipn. }
  assert (Bf : Forall byte (firstn (Datatypes.S eb) bs1)).
  { rewrite Forall_forall in *. intros x I. apply B1. rewrite <- (firstn_skipn (Datatypes.S eb) bs1).
    apply in_or_app; auto. }
  apply Nat.eqb_eq in Len.
  remember (firstn (Datatypes.S eb) bs1) as buf eqn:EB. clear EB B1 B.
  destruct eb as [|[|[|eb]]]; [| | |lia].
  - destruct buf as [|b0 [|? ?]]; try discriminate. inversion Bf as [|? ? Hb0 _]; subst.
    simpl in Cont. rewrite andb_true_r in Cont.
    destruct (cont_true _ Hb0 Cont) as [Q0 L0]. destruct (extra_1 _ Hb X) as [Q L].
    rewrite combine2 in Cmb by auto. inversion Cmb; subst.
    replace b with (192 + (b - 192)) at 1 by lia. replace b0 with (128 + (b0 - 128)) at 1 by lia. apply acc2; lia.
  - destruct buf as [|b0 [|b1 [|? ?]]]; try discriminate. inversion Bf as [|? ? Hb0 Bf1]; subst.
    inversion Bf1 as [|? ? Hb1 _]; subst. simpl in Cont. rewrite andb_true_r in Cont.
    apply andb_true_iff in Cont as [C0 C1].
    destruct (cont_true _ Hb0 C0) as [Q0 L0]. destruct (cont_true _ Hb1 C1) as [Q1 L1].
    destruct (extra_2 _ Hb X) as [Q L].
    rewrite combine3 in Cmb by auto. inversion Cmb; subst.
    replace b with (224 + (b - 224)) at 1 by lia. replace b0 with (128 + (b0 - 128)) at 1 by lia.
    replace b1 with (128 + (b1 - 128)) at 1 by lia. apply acc3; lia.
  - destruct buf as [|b0 [|b1 [|b2 [|? ?]]]]; try discriminate. inversion Bf as [|? ? Hb0 Bf1]; subst.
    inversion Bf1 as [|? ? Hb1 Bf2]; subst. inversion Bf2 as [|? ? Hb2 _]; subst.
    simpl in Cont. rewrite andb_true_r in Cont.
    apply andb_true_iff in Cont as [C0 C]. apply andb_true_iff in C as [C1 C2].
    destruct (cont_true _ Hb0 C0) as [Q0 L0]. destruct (cont_true _ Hb1 C1) as [Q1 L1].
    destruct (cont_true _ Hb2 C2) as [Q2 L2]. destruct (extra_3 _ Hb X) as [Q L].
    rewrite combine4 in Cmb by auto. cbv zeta in Cmb.
    destruct (Z.ltb_spec 1114111 ((b - 240) * 262144 + (b0 - 128) * 4096 + (b1 - 128) * 64 + (b2 - 128)));
      inversion Cmb; subst.
    replace b with (240 + (b - 240)) at 1 by lia. replace b0 with (128 + (b0 - 128)) at 1 by lia.
    replace b1 with (128 + (b1 - 128)) at 1 by lia. replace b2 with (128 + (b2 - 128)) at 1 by lia. apply acc4; lia.
Qed.

Lemma front_complete p r rest : accepts p r -> front (p ++ rest) = Some (r, rest).
Proof.
  intros A. pose proof (accepts_bytes _ _ A) as B.
  assert (C : forall x, 0 <= x < 64 -> (Z.land (128 + x) 192 =? 128) = true /\ Z.land (128 + x) 63 = x).
  { intros x Hx. assert (Hb : byte (128 + x)) by (unfold byte; lia).
    destruct (Z.land (128 + x) 192 =? 128) eqn:E.
    - destruct (cont_true _ Hb E). split; auto. lia.
    - apply cont_false in E; auto. lia. }
  destruct A as [b Hb|a b Ha Hb|a b c Ha Hb Hc|a b c d Ha Hb Hc Hd Le]; cbn [app]; unfold front.
  - assert (X : extra_bytes b = Some 0%nat) by (apply extra_0; unfold byte; lia). rewrite X. reflexivity.
  - assert (Hb2 : byte (192 + a)) by (unfold byte; lia).
    pose proof (extra_bytes_ok _ Hb2) as K. unfold extra_ok in K.
    destruct (extra_bytes (192 + a)) as [[|[|[|[|?]]]]|]; try lia.
    destruct (C b Hb) as [C1 L1]. cbn [firstn length Nat.eqb forallb]. rewrite C1. cbn [andb].
    unfold combine_bytes. rewrite L1. replace (Z.land (192 + a) 31) with a by lia.
    rewrite lor_shift by (change (2 ^ 6) with 64; lia). reflexivity.
  - assert (Hb2 : byte (224 + a)) by (unfold byte; lia).
    pose proof (extra_bytes_ok _ Hb2) as K. unfold extra_ok in K.
    destruct (extra_bytes (224 + a)) as [[|[|[|[|?]]]]|]; try lia.
    destruct (C b Hb) as [C1 L1]. destruct (C c Hc) as [C2 L2].
    cbn [firstn length Nat.eqb forallb]. rewrite C1, C2. cbn [andb].
    unfold combine_bytes. rewrite L1, L2. replace (Z.land (224 + a) 15) with a by lia.
    rewrite lor_assoc_shift2 by lia. reflexivity.
  - assert (Hb2 : byte (240 + a)) by (unfold byte; lia).
    pose proof (extra_bytes_ok _ Hb2) as K. unfold extra_ok in K.
    destruct (extra_bytes (240 + a)) as [[|[|[|[|?]]]]|]; try lia.
    destruct (C b Hb) as [C1 L1]. destruct (C c Hc) as [C2 L2]. destruct (C d Hd) as [C3 L3].
    cbn [firstn length Nat.eqb forallb]. rewrite C1, C2, C3. cbn [andb].
    unfold combine_bytes. rewrite L1, L2, L3. replace (Z.land (240 + a) 7) with a by lia.
    rewrite lor_assoc_shift3 by lia. cbv zeta.
    destruct (Z.ltb_spec 1114111 (a * 262144 + b * 4096 + c * 64 + d)); [lia|]. reflexivity.
Qed.

(** ** Whole streams *)
Lemma runes_emits {S} (rd : reader S) ps rs rest s e e0 :
  Forall2 accepts ps rs -> holds rd s (concat ps ++ rest) e ->
  exists e1 s', emits (runes_gen rd) (false, e0, s) rs (false, e1, s') /\ holds rd s' rest e.
Proof.
  intros F. revert s e0. induction F as [|p r ps rs A F IH]; intros s e0 Hd.
  - exists e0, s. split; auto. constructor.
  - simpl in Hd. rewrite <- app_assoc in Hd.
    destruct (runes_step rd s _ e e0 r _ Hd (front_complete _ _ _ A)) as (s1 & R & H1).
    destruct (IH s1 None H1) as (e1 & s' & E & H2). exists e1, s'. split; auto. econstructor; eauto.
Qed.

Lemma runes_yields {S} (rd : reader S) ps rs s e :
  Forall2 accepts ps rs -> holds rd s (concat ps) e ->
  yields (next (runes_gen rd)) (ofIter (runes_init s)) rs (translate e).
Proof.
  intros F Hd. rewrite <- (app_nil_r (concat ps)) in Hd.
  destruct (runes_emits rd ps rs [] s e (Some EOI) F Hd) as (e1 & s' & E & H').
  destruct (runes_end rd s' e e1 H') as (s2 & Fl). eapply ofIter_yields; eauto.
Qed.

Lemma runes_encode {S} (rd : reader S) rs s e :
  Forall scalar rs -> holds rd s (flat_map encode rs) e ->
  yields (next (runes_gen rd)) (ofIter (runes_init s)) rs (translate e).
Proof.
  intros F. rewrite flat_map_concat_map. apply runes_yields.
  induction F as [|r rs Hr F IH]; simpl; constructor; auto. apply encode_accepts; auto.
Qed.

(** the complete behaviour on arbitrary bytes *)
Lemma runes_invalid {S} (rd : reader S) ps rs rest s e :
  Forall2 accepts ps rs -> Forall byte rest -> rest <> [] ->
  (forall p r rest', accepts p r -> rest <> p ++ rest') ->
  holds rd s (concat ps ++ rest) e ->
  exists e', yields (next (runes_gen rd)) (ofIter (runes_init s)) rs e' /\
    (e' = InvalidUTF8 \/ (e' = e /\ e <> EOF /\ length rest = 1%nat)).
Proof.
  intros F B Ne No Hd. destruct (runes_emits rd ps rs rest s e (Some EOI) F Hd) as (e1 & s' & E & H').
  assert (Fr : front rest = None).
  { destruct (front rest) as [[r bs']|] eqn:Fr; auto. destruct (front_sound _ _ _ B Fr) as (p & Eq & A).
    exfalso. eapply No; eauto. }
  destruct (runes_bad rd s' rest e e1 H' Ne Fr) as (e' & st' & Fl & Or). exists e'. split; auto.
  eapply ofIter_yields; eauto.
Qed.

Lemma every_bytes_split bs : Forall byte bs ->
  exists ps rs rest, bs = concat ps ++ rest /\ Forall2 accepts ps rs /\
    (forall p r rest', accepts p r -> rest <> p ++ rest').
Proof.
  remember (length bs) as n eqn:En. revert bs En.
  induction n as [n IH] using lt_wf_ind; intros bs En B.
  destruct (front bs) as [[r bs']|] eqn:F.
  - destruct (front_sound _ _ _ B F) as (p & Eq & A).
    assert (Lp : (0 < length p)%nat) by (destruct A; simpl; lia).
    subst bs. apply Forall_app in B as [_ B'].
    destruct (IH (length bs') ltac:(rewrite En, app_length; lia) bs' eq_refl B') as (ps & rs & rest & E1 & F1 & N1).
    exists (p :: ps), (r :: rs), rest. split; [|split]; auto.
    simpl. rewrite <- app_assoc. congruence.
  - exists [], [], bs. split; [reflexivity|]. split; [constructor|]. intros p r rest' A Eq. subst bs.
    rewrite (front_complete p r rest' A) in F. discriminate.
Qed.

(** strings.Reader holds its bytes *)
Lemma string_reader_holds bs : holds string_reader bs bs EOF.
Proof.
  revert bs. cofix CH. intros bs. constructor. intros n Hn. destruct bs as [|b bs].
  - exists []. split; [simpl; destruct n; reflexivity|]. destruct n; apply CH.
  - exists (skipn n (b :: bs)). split; [reflexivity|]. apply CH.
Qed.

(** ** Lines *)
Section Lines.
  Context {S : Type}.
  Variable it : stepfn S Z.

  (** reading one line, from any point inside it *)
  Definition lr (str : list Z) (cr : bool) (s : S) (r : ret (list Z)) (st : bool * option err * S) : Prop :=
    exists n k, forall m loop, (n <= m)%nat -> (k <= loop)%nat -> lines_loop it loop m str cr s = Done (r, st).

  Lemma lr_returns cr s r st : lr [] cr s r st -> returns (lines_gen it) (cr, None, s) r st.
  Proof. intros (n & k & R). exists (n + k)%nat. intros m Hm. simpl. apply R; lia. Qed.

  Lemma lr_other str cr s c s1 r st : returns it s (c, None) s1 -> c <> 10 -> c <> 13 ->
    lr (str ++ [c]) cr s1 r st -> lr str cr s r st.
  Proof.
    intros [n0 R0] N1 N2 (n & k & R). exists (n0 + n)%nat, (Datatypes.S k). intros m loop Hm Hl.
    destruct loop as [|loop]; [lia|]. cbn [lines_loop]. rewrite R0 by lia. cbn [obind].
    destruct (Z.eqb_spec c 13); [congruence|]. destruct (Z.eqb_spec c 10); [congruence|]. apply R; lia.
  Qed.

  Lemma lr_others str cr s l s1 r st : emits it s l s1 -> plain l -> lr (str ++ l) cr s1 r st -> lr str cr s r st.
  Proof.
    intros E. revert str. induction E as [s|s v s1 l s2 R E IH]; intros str [P1 P2] K.
    - rewrite app_nil_r in K. exact K.
    - eapply lr_other; eauto.
      + intros ->. apply P1; left; auto.
      + intros ->. apply P2; left; auto.
      + apply IH.
        * split; intros X; [apply P1|apply P2]; right; auto.
        * rewrite <- app_assoc. exact K.
  Qed.

  Lemma lr_cr str cr s s1 : returns it s (13, None) s1 -> lr str cr s (str, None) (true, None, s1).
  Proof.
    intros [n R]. exists n, 1%nat. intros m loop Hm Hl. destruct loop as [|loop]; [lia|].
    cbn [lines_loop]. rewrite R by lia. reflexivity.
  Qed.

  Lemma lr_lf str s s1 : returns it s (10, None) s1 -> lr str false s (str, None) (false, None, s1).
  Proof.
    intros [n R]. exists n, 1%nat. intros m loop Hm Hl. destruct loop as [|loop]; [lia|].
    cbn [lines_loop]. rewrite R by lia. reflexivity.
  Qed.

  Lemma lr_lf_skip str s s1 r st : returns it s (10, None) s1 -> lr str false s1 r st -> lr str true s r st.
  Proof.
    intros [n0 R0] (n & k & R). exists (n0 + n)%nat, (Datatypes.S k). intros m loop Hm Hl.
    destruct loop as [|loop]; [lia|]. cbn [lines_loop]. rewrite R0 by lia. cbn [obind].
    simpl. apply R; lia.
  Qed.

  Lemma lr_end_text str cr s e s1 : fails it s e s1 -> translate e = EOI -> str <> [] ->
    lr str cr s (str, None) (cr, Some EOI, s1).
  Proof.
    intros [v [n R]] T Ne. exists n, 1%nat. intros m loop Hm Hl. destruct loop as [|loop]; [lia|].
    cbn [lines_loop]. rewrite R by lia. cbn [obind]. destruct e; try discriminate; destruct str; try congruence; reflexivity.
  Qed.

  Lemma lr_end_empty cr s e s1 : fails it s e s1 -> translate e = EOI -> lr [] cr s ([], Some EOI) (cr, Some EOI, s1).
  Proof.
    intros [v [n R]] T. exists n, 1%nat. intros m loop Hm Hl. destruct loop as [|loop]; [lia|].
    cbn [lines_loop]. rewrite R by lia. cbn [obind]. destruct e; try discriminate; reflexivity.
  Qed.

  Lemma lr_end_err str cr s e s1 : fails it s e s1 -> translate e <> EOI -> lr str cr s ([], Some e) (cr, Some e, s1).
  Proof.
    intros [v [n R]] T. exists n, 1%nat. intros m loop Hm Hl. destruct loop as [|loop]; [lia|].
    cbn [lines_loop]. rewrite R by lia. cbn [obind]. destruct e; try reflexivity; simpl in T; congruence.
  Qed.

  Definition behaves (st : bool * option err * S) (ls : list (list Z)) (e : err) : Prop :=
    exists st1 st2, emits (lines_gen it) st ls st1 /\ fails (lines_gen it) st1 e st2.

  Lemma behaves_cons st l st1 ls e : returns (lines_gen it) st (l, None) st1 -> behaves st1 ls e -> behaves st (l :: ls) e.
  Proof. intros R (a & b & E & F). exists a, b. split; auto. econstructor; eauto. Qed.

  Lemma behaves_ended cr e s : behaves (cr, Some e, s) [] e.
  Proof. eexists _, _. split; [constructor|]. exists [], 0%nat. intros; reflexivity. Qed.

  Lemma cr_safe_plain b l text : plain l -> cr_safe b (l ++ text) -> cr_safe b text.
  Proof.
    induction l as [|c l IH]; intros [P1 P2] C; [exact C|].
    assert (c <> 10) by (intros ->; apply P1; left; auto).
    assert (c <> 13) by (intros ->; apply P2; left; auto).
    apply IH. { split; intros X; [apply P1|apply P2]; right; auto. }
    inversion C; subst; auto; congruence.
  Qed.

  Lemma lines_main text ls rest : split_lines text ls rest ->
    forall cr s cr0 s0 s1 e s2,
      cr_safe cr0 text ->
      (forall r st, lr [] cr0 s0 r st -> lr [] cr s r st) ->
      emits it s0 text s1 -> fails it s1 e s2 ->
      behaves (cr, None, s) (out_lines ls rest e) (translate e).
  Proof.
    induction 1 as [l P|l t text ls rest P T Hc Sp IH]; intros cr s cr0 s0 s1 e s2 C Pre E F.
    - unfold out_lines. destruct (translate e) eqn:Te.
      2-7: (rewrite <- Te; eexists _, _; split; [constructor|];
            assert (translate e = e) as Te' by (destruct e; simpl in Te; try discriminate; reflexivity);
            rewrite Te'; exists []; apply lr_returns, Pre; eapply lr_others; eauto; apply lr_end_err; eauto; congruence).
      destruct l as [|c l].
      + eexists _, _. split; [constructor|]. exists []. apply lr_returns, Pre. eapply lr_others; eauto.
        eapply lr_end_empty; eauto.
      + eapply behaves_cons. { apply lr_returns, Pre. eapply lr_others; eauto.
          eapply lr_end_text; eauto. discriminate. }
        apply behaves_ended.
    - apply emits_app_inv in E as (sa & Ea & E). apply emits_app_inv in E as (sb & Eb & E).
      pose proof (cr_safe_plain _ _ _ P C) as Ct.
      replace (out_lines (l :: ls) rest e) with (l :: out_lines ls rest e)
        by (unfold out_lines; destruct (translate e), rest; reflexivity).
      destruct T.
      + inversion Eb as [|? ? sx ? ? R Ex]; subst. inversion Ex; subst.
        inversion Ct; subst; try congruence.
        eapply behaves_cons. { apply lr_returns, Pre. eapply lr_others; eauto. apply lr_lf; eauto. }
        eapply IH; eauto.
      + inversion Eb as [|? ? sx ? ? R Ex]; subst. inversion Ex; subst.
        assert (C' : cr_safe true text).
        { inversion Ct; subst; try congruence. exfalso. apply (Hc eq_refl). reflexivity. }
        eapply behaves_cons. { apply lr_returns, Pre. eapply lr_others; eauto. apply lr_cr; eauto. }
        eapply IH; eauto.
      + inversion Eb as [|? ? sx ? ? R Ex]; subst. inversion Ex as [|? ? sy ? ? R2 Ey]; subst. inversion Ey; subst.
        assert (C' : cr_safe false text).
        { inversion Ct; subst; try congruence. exfalso. match goal with X : hd_error _ <> _ |- _ => apply X end. reflexivity. }
        eapply behaves_cons. { apply lr_returns, Pre. eapply lr_others; eauto. apply lr_cr; eauto. }
        eapply IH; eauto. intros r st K. eapply lr_lf_skip; eauto.
  Qed.

  (** The line iterator over any rune function that returns [text] and then fails with [e]. *)
  Lemma lines_yields text ls rest s s1 e s2 :
    split_lines text ls rest -> cr_safe false text -> emits it s text s1 -> fails it s1 e s2 ->
    yields (next (lines_gen it)) (ofIter (lines_init s)) (out_lines ls rest e) (translate e).
  Proof.
    intros Sp C E F. destruct (lines_main text ls rest Sp false s false s s1 e s2 C (fun _ _ K => K) E F) as (a & b & E' & F').
    eapply ofIter_yields; eauto.
  Qed.

  (** Finding: a CR-terminated line, then an LF-terminated one: the latter merges with what follows it. *)
  Lemma lines_merge l1 l2 l3 s s1 s2 :
    plain l1 -> plain l2 -> plain l3 -> l2 <> [] ->
    emits it s (l1 ++ [13] ++ l2 ++ [10] ++ l3) s1 -> fails it s1 EOI s2 ->
    yields (next (lines_gen it)) (ofIter (lines_init s)) [l1; l2 ++ l3] EOI.
  Proof.
    intros P1 P2 P3 Ne E F.
    apply emits_app_inv in E as (sa & Ea & E). apply emits_app_inv in E as (sb & Eb & E).
    apply emits_app_inv in E as (sc & Ec & E). apply emits_app_inv in E as (sd & Ed & E).
    inversion Eb as [|? ? sx ? ? Rb Ex]; subst. inversion Ex; subst.
    inversion Ed as [|? ? sy ? ? Rd Ey]; subst. inversion Ey; subst.
    assert (B : behaves (lines_init s) [l1; l2 ++ l3] EOI).
    { eapply behaves_cons. { apply lr_returns. eapply lr_others; [exact Ea|exact P1|]. apply lr_cr; eauto. }
      eapply behaves_cons.
      { apply lr_returns. eapply lr_others; [exact Ec|exact P2|]. eapply lr_lf_skip; eauto.
        eapply lr_others; [exact E|exact P3|]. eapply lr_end_text; eauto.
        destruct l2; [congruence|discriminate]. }
      apply behaves_ended. }
    destruct B as (a & b & E' & F'). eapply ofIter_yields; eauto.
  Qed.
End Lines.

(** Every text can be split. *)
Lemma split_total text : exists ls rest, split_lines text ls rest.
Proof.
  remember (length text) as n eqn:En. revert text En.
  induction n as [n IH] using lt_wf_ind; intros text En.
  assert (D : plain text \/ exists l c rest, text = l ++ c :: rest /\ plain l /\ (c = 10 \/ c = 13)).
  { clear. induction text as [|c text IH].
    - left. split; intros [].
    - destruct (Z.eq_dec c 10) as [->|N1]; [right; exists [], 10, text; split; [|split]; auto; split; intros []|].
      destruct (Z.eq_dec c 13) as [->|N2]; [right; exists [], 13, text; split; [|split]; auto; split; intros []|].
      destruct IH as [[P1 P2]|(l & d & rest & -> & [P1 P2] & O)].
      + left. split; intros [X|X]; auto.
      + right. exists (c :: l), d, rest. split; [reflexivity|]. split; auto. split; intros [X|X]; auto. }
  destruct D as [P|(l & c & rest & -> & P & O)].
  - exists [], text. constructor; auto.
  - rewrite app_length in En. simpl in En.
    destruct O as [->| ->].
    + destruct (IH (length rest) ltac:(lia) rest eq_refl) as (ls & r & Sp).
      exists (l :: ls), r. apply (split_line l [10]); auto. constructor. discriminate.
    + destruct rest as [|d rest].
      * exists [l], []. apply (split_line l [13]); auto. constructor. simpl; discriminate. constructor. split; intros [].
      * destruct (Z.eq_dec d 10) as [->|Nd].
        -- simpl in En. destruct (IH (length rest) ltac:(lia) rest eq_refl) as (ls & r & Sp).
           exists (l :: ls), r. apply (split_line l [13; 10] rest); auto. constructor. discriminate.
        -- destruct (IH (length (d :: rest)) ltac:(lia) (d :: rest) eq_refl) as (ls & r & Sp).
           exists (l :: ls), r. apply (split_line l [13] (d :: rest)); auto. constructor. simpl; congruence.
Qed.
