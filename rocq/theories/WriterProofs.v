From Verif Require Import Base IterSpec Iter IterProofs Readers ReaderSpec ReaderProofs Writer WriterSpec.
From Coq Require Import ZifyBool.
Open Scope Z_scope.

Section W.
  Context {S T : Type}.
  Variable fn : S -> T -> option err * S.

  Lemma write_ok s vals s' : write fn s vals = (None, s') <-> accepted fn s vals s'.
  Proof.
    split.
    - revert s. induction vals as [|v vals IH]; intros s; simpl.
      + intros E; inversion E; constructor.
      + destruct (fn s v) as [[e|] s1] eqn:F; [discriminate|]. intros E. econstructor; eauto.
    - induction 1 as [s|s v s1 l s2 F A IH]; simpl; auto. rewrite F. exact IH.
  Qed.

  Lemma write_err s vals e s' :
    write fn s vals = (Some e, s') <->
    exists pre v post s1, vals = pre ++ v :: post /\ accepted fn s pre s1 /\ fn s1 v = (Some e, s').
  Proof.
    split.
    - revert s. induction vals as [|v vals IH]; intros s; simpl; [discriminate|].
      destruct (fn s v) as [[e1|] s1] eqn:F.
      + intros E; inversion E; subst. exists [], v, vals, s. split; [|split]; auto. constructor.
      + intros E. destruct (IH _ E) as (pre & w & post & s2 & Eq & A & F2).
        exists (v :: pre), w, post, s2. split; [simpl; congruence|]. split; auto. econstructor; eauto.
    - intros (pre & v & post & s1 & -> & A & F). revert F.
      induction A as [s|s w s1 l s2 F0 A IH]; intros F; simpl.
      + rewrite F. reflexivity.
      + rewrite F0. apply IH; auto.
  Qed.
End W.

Lemma write_app {S T} (fn : S -> T -> option err * S) s a b :
  write fn s (a ++ b) = match write fn s a with (None, s1) => write fn s1 b | r => r end.
Proof.
  revert s. induction a as [|v a IH]; intros s; simpl; auto.
  destruct (fn s v) as [[e|] s1]; auto.
Qed.

Lemma slice_write {T} (slc vals : list T) : write slice_writer slc vals = (None, slc ++ vals).
Proof.
  revert slc. induction vals as [|v vals IH]; intros slc; simpl. rewrite app_nil_r; auto.
  rewrite IH, <- app_assoc. reflexivity.
Qed.

Lemma map_write {K V} (eqb : K -> K -> bool) (m : K -> option V) kvs :
  exists m', write (map_writer eqb) m kvs = (None, m') /\
    forall k, m' k = match last_for eqb k kvs with Some v => Some v | None => m k end.
Proof.
  revert m. induction kvs as [|[k0 v0] kvs IH]; intros m; simpl.
  - exists m. split; auto.
  - destruct (IH (fun k => if eqb k k0 then Some v0 else m k)) as (m' & W & L). exists m'. split; [exact W|].
    intros k. rewrite L. destruct (last_for eqb k kvs); auto. destruct (eqb k k0); auto.
Qed.

(** ** Runes and lines to a buffer *)
Lemma buffer_bytes s p : write_bytes buffer_writer s p = (None, s ++ p).
Proof. unfold write_bytes, buffer_writer. destruct (Z.ltb_spec (Z.of_nat (length p)) (Z.of_nat (length p))); [lia|reflexivity]. Qed.

Lemma is_scalar_spec r : scalar r -> is_scalar r = true.
Proof. unfold scalar, is_scalar. lia. Qed.

Lemma runes_written s rs : Forall scalar rs -> write (rune_writer buffer_writer) s rs = (None, s ++ flat_map encode rs).
Proof.
  intros F. revert s. induction F as [|r rs Hr F IH]; intros s; simpl. rewrite app_nil_r; auto.
  unfold rune_writer at 1. rewrite buffer_bytes. unfold string_of_rune. rewrite is_scalar_spec by auto.
  rewrite IH, <- app_assoc. reflexivity.
Qed.

Lemma rune_round_trip rs :
  Forall scalar rs ->
  exists bs, write (rune_writer buffer_writer) [] rs = (None, bs) /\
    yields (next (runes_gen string_reader)) (ofIter (runes_init bs)) rs EOI.
Proof.
  intros F. exists (flat_map encode rs). split; [apply (runes_written []); auto|].
  apply (runes_encode string_reader rs (flat_map encode rs) EOF); auto. apply string_reader_holds.
Qed.

Lemma lines_written eol s ls :
  write (line_writer eol buffer_writer) s ls = (None, s ++ flat_map (fun l => l ++ eol) ls).
Proof.
  revert s. induction ls as [|l ls IH]; intros s; simpl. rewrite app_nil_r; auto.
  unfold line_writer at 1. rewrite buffer_bytes, IH, <- app_assoc. reflexivity.
Qed.

Lemma scalar_10 : scalar 10. Proof. unfold scalar; lia. Qed.
Lemma scalar_13 : scalar 13. Proof. unfold scalar; lia. Qed.

Lemma flat_map_app2 {A B} (f : A -> list B) l1 l2 : flat_map f (l1 ++ l2) = flat_map f l1 ++ flat_map f l2.
Proof. apply flat_map_app. Qed.

(** text of a list of lines *)
Definition text_of (eol : list Z) (ls : list (list Z)) : list Z := flat_map (fun l => l ++ eol) ls.

Lemma text_split eol ls : (eol = [10] \/ eol = [13; 10]) -> Forall plain ls -> split_lines (text_of eol ls) ls [].
Proof.
  intros He F. induction F as [|l ls P F IH]; simpl.
  - constructor. split; intros [].
  - unfold text_of in *. simpl. rewrite <- app_assoc. constructor; auto.
    + destruct He as [->| ->]; constructor.
    + destruct He as [->| ->]; discriminate.
Qed.

Lemma cr_safe_app_plain b l text : plain l -> cr_safe b text -> cr_safe b (l ++ text).
Proof.
  induction l as [|c l IH]; intros [P1 P2] C; [exact C|]. simpl. constructor.
  - intros ->. apply P1; left; auto.
  - intros ->. apply P2; left; auto.
  - apply IH; auto. split; intros X; [apply P1|apply P2]; right; auto.
Qed.

Lemma text_safe eol ls : (eol = [10] \/ eol = [13; 10]) -> Forall plain ls -> cr_safe false (text_of eol ls).
Proof.
  intros He F. induction F as [|l ls P F IH]; simpl.
  - constructor.
  - unfold text_of in *. simpl. rewrite <- app_assoc. apply cr_safe_app_plain; auto.
    destruct He as [->| ->]; simpl; constructor; auto.
Qed.

Lemma line_round_trip eol (ls : list (list Z)) :
  (eol = [10] \/ eol = [13; 10]) -> Forall (fun l => Forall scalar l /\ plain l) ls ->
  exists bs, write (line_writer eol buffer_writer) [] (map (flat_map encode) ls) = (None, bs) /\
    yields (next (lines_gen (runes_gen string_reader))) (ofIter (lines_init (runes_init bs))) ls EOI.
Proof.
  intros He F. eexists. split; [apply lines_written|]. simpl app.
  assert (Fs : Forall scalar (text_of eol ls)).
  { unfold text_of. clear - He F. induction F as [|l ls [Sc _] F IH]; simpl; [constructor|].
    repeat (apply Forall_app; split); auto.
    destruct He as [->| ->]; repeat constructor; try apply scalar_10; try apply scalar_13; unfold scalar; lia. }
  assert (Eq : flat_map (fun l => l ++ eol) (map (flat_map encode) ls) = flat_map encode (text_of eol ls)).
  { unfold text_of. clear - He. induction ls as [|l ls IH]; simpl; auto. rewrite !flat_map_app2, IH.
    destruct He as [->| ->]; reflexivity. }
  rewrite Eq.
  assert (Fp : Forall plain ls) by (rewrite Forall_forall in *; intros l I; apply F; auto).
  assert (Fa : Forall2 accepts (map encode (text_of eol ls)) (text_of eol ls)).
  { clear - Fs. induction Fs; simpl; constructor; auto. apply encode_accepts; auto. }
  pose proof (string_reader_holds (flat_map encode (text_of eol ls))) as Hd.
  rewrite flat_map_concat_map in Hd at 2. rewrite <- (app_nil_r (concat _)) in Hd.
  destruct (runes_emits string_reader _ _ [] _ EOF (Some EOI) Fa Hd) as (e1 & s' & E & H').
  destruct (runes_end string_reader s' EOF e1 H') as (s2 & Fl).
  pose proof (lines_yields (runes_gen string_reader) (text_of eol ls) ls [] _ _ _ _
                (text_split eol ls He Fp) (text_safe eol ls He Fp) E Fl) as Y.
  exact Y.
Qed.

(** ** ErrorReader *)
Lemma error_reads_one (input spare : list Z) e k :
  (k <= length input)%nat ->
  error_reads input spare e 0 (repeat 1%nat k) = Done (map (fun b => ([b], None)) (firstn k input), k).
Proof.
  intros Hk.
  assert (G : forall j pos, (pos + j = k)%nat ->
    error_reads input spare e pos (repeat 1%nat j) = Done (map (fun b => ([b], None)) (firstn j (skipn pos input)), k)).
  { induction j as [|j IH]; intros pos Hp.
    - simpl. f_equal. f_equal. lia.
    - simpl. unfold error_read. destruct (Nat.leb_spec (length input) pos); [lia|].
      replace (Nat.min (length input) 1) with 1%nat by lia.
      rewrite app_length. destruct (Nat.ltb_spec (length input + length spare) (pos + 1)); [lia|].
      rewrite IH by lia. rewrite skipn_app. replace (pos - length input)%nat with 0%nat by lia.
      destruct (skipn pos input) as [|b r] eqn:Sk.
      { apply (f_equal (@length Z)) in Sk. rewrite skipn_length in Sk. simpl in Sk. lia. }
      simpl. f_equal. f_equal. f_equal. f_equal.
      replace (skipn (pos + 1) input) with r; auto.
      rewrite Nat.add_comm. clear - Sk. revert input Sk. induction pos as [|pos IH]; intros input Sk.
      + simpl in Sk. subst. reflexivity.
      + destruct input as [|x input]; [discriminate|]. simpl in *. apply IH; auto. }
  apply (G k 0%nat). lia.
Qed.

Lemma error_read_end input spare e pos n : (length input <= pos)%nat ->
  error_read input spare e pos n = Done (([], Some e), pos).
Proof. intros Hp. unfold error_read. destruct (Nat.leb_spec (length input) pos); [reflexivity|lia]. Qed.

(** one read, exactly *)
Lemma error_read_exact input spare e pos n :
  (pos < length input)%nat ->
  ((pos + Nat.min (length input) n <= length input)%nat ->
     error_read input spare e pos n = Done ((firstn n (skipn pos input), None), (pos + Nat.min (length input) n)%nat)) /\
  ((length input + length spare < pos + Nat.min (length input) n)%nat -> error_read input spare e pos n = Panicked).
Proof.
  intros Hp. unfold error_read. destruct (Nat.leb_spec (length input) pos); [lia|]. split; intros Hn.
  - rewrite app_length. destruct (Nat.ltb_spec (length input + length spare) (pos + Nat.min (length input) n)); [lia|].
    f_equal. f_equal. f_equal. rewrite skipn_app, firstn_app.
    replace (Nat.min (length input) n - length (skipn pos input))%nat with 0%nat by (rewrite skipn_length; lia).
    rewrite app_nil_r. destruct (Nat.le_gt_cases n (length input)).
    + rewrite Nat.min_r by lia. reflexivity.
    + rewrite Nat.min_l by lia. rewrite !firstn_all2; auto; rewrite skipn_length; lia.
  - rewrite app_length. destruct (Nat.ltb_spec (length input + length spare) (pos + Nat.min (length input) n)); [reflexivity|lia].
Qed.

(** ** ErrorWriter *)
Lemma error_writes_output count e out ps :
  0 <= count -> Z.of_nat (length out) <= count ->
  snd (error_writes count e out ps) = firstn (Z.to_nat count) (out ++ concat ps).
Proof.
  intros Hc. revert out. induction ps as [|p ps IH]; intros out Ho; simpl.
  - rewrite app_nil_r, firstn_all2 by lia. reflexivity.
  - unfold error_write. destruct (Z.eqb_spec (Z.of_nat (length out)) count) as [E|E].
    + destruct (error_writes count e out ps) as [rs o2] eqn:W. simpl.
      specialize (IH out Ho). rewrite W in IH. simpl in IH. rewrite IH.
      rewrite !firstn_app. replace (Z.to_nat count - length out)%nat with 0%nat by lia. reflexivity.
    + destruct (Z.ltb_spec count 0); [lia|].
      set (k := Z.to_nat (Z.min (Z.of_nat (length p)) (count - Z.of_nat (length out)))).
      destruct (error_writes count e (out ++ firstn k p) ps) as [rs o2] eqn:W. simpl.
      specialize (IH (out ++ firstn k p)). rewrite W in IH. simpl in IH. rewrite IH.
      2: { rewrite app_length, firstn_length. subst k. lia. }
      rewrite <- app_assoc. rewrite !firstn_app. f_equal.
      destruct (Z.le_gt_cases (Z.of_nat (length p)) (count - Z.of_nat (length out))).
      * replace k with (length p) by (subst k; lia). rewrite firstn_all. reflexivity.
      * assert (Ek : k = (Z.to_nat count - length out)%nat) by (subst k; lia). rewrite <- Ek.
        rewrite firstn_length. replace (k - Nat.min k (length p))%nat with 0%nat by lia.
        replace (k - length p)%nat with 0%nat by lia. simpl. rewrite firstn_firstn, Nat.min_id. reflexivity.
Qed.

(** one write, exactly: what is accepted, what is returned *)
Lemma error_write_exact count e out p :
  0 <= count -> Z.of_nat (length out) <= count ->
  error_write count e out p =
  (if Z.of_nat (length out) =? count then (0, Some e) else (Z.min (Z.of_nat (length p)) (count - Z.of_nat (length out)), None),
   firstn (Z.to_nat count) (out ++ p)).
Proof.
  intros Hc Ho. pose proof (error_writes_output count e out [p] Hc Ho) as W. simpl in W. rewrite app_nil_r in W.
  unfold error_write in *. destruct (Z.eqb_spec (Z.of_nat (length out)) count).
  - simpl in W. congruence.
  - destruct (Z.ltb_spec count 0); [lia|]. simpl in W. congruence.
Qed.
