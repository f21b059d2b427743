(** Proofs about BigMem.v. *)
From Coq Require Import ZArith List QArith ZifyBool ZifyNat Lia.
From Verif Require Import Base SliceMem SliceMemProofs Conv Float ConvFloat ConvFloatSpec ConvFloatProofs4 BigMem BigMemSpec.
Close Scope Q_scope.
Open Scope Z_scope.
Open Scope go_scope.
Import ListNotations.
#[local] Opaque base.

Lemma base_eq : base = 2 ^ 64. Proof. reflexivity. Qed.
Lemma base_pos : 1 < base. Proof. rewrite base_eq. reflexivity. Qed.

(** ** Words *)
Lemma nat_of_nonneg l : Forall word l -> 0 <= nat_of l.
Proof. pose proof base_pos. induction 1 as [|w l W _ IH]; cbn; [lia|]. destruct W. nia. Qed.
Lemma words_fuel_ok n z : 0 <= z < 2 ^ Z.of_nat n -> Forall word (words_fuel n z) /\ nat_of (words_fuel n z) = z /\ last (words_fuel n z) 1 <> 0.
Proof.
  pose proof base_pos as B. revert z. induction n as [|n IH]; intros z R; cbn [words_fuel].
  - replace z with 0 by (cbn in R; lia). repeat split; [constructor|cbn; lia].
  - destruct (Z.eqb_spec z 0) as [->|N]; [repeat split; [constructor|cbn; lia]|].
    assert (D : 0 <= z / base < 2 ^ Z.of_nat n).
    { split; [apply Z.div_pos; lia|]. apply Z.div_lt_upper_bound; [lia|]. replace (Z.of_nat (S n)) with (Z.of_nat n + 1) in R by lia. rewrite Z.pow_add_r in R by lia. nia. }
    destruct (IH _ D) as (F & E & L). split; [constructor; [apply Z.mod_pos_bound; lia|exact F]|]. cbn [nat_of]. rewrite E. split; [pose proof (Z.div_mod z base); lia|].
    destruct (words_fuel n (z / base)) as [|w l] eqn:W; [|exact L]. cbn in E |- *. assert (z / base = 0) by lia. pose proof (Z.div_mod z base). lia.
Qed.
Lemma words_of_ok z : 0 <= z -> Forall word (words_of z) /\ nat_of (words_of z) = z /\ last (words_of z) 1 <> 0.
Proof.
  intros N. unfold words_of. apply words_fuel_ok. split; [exact N|]. destruct (Z.eq_dec z 0) as [->|]; [reflexivity|].
  replace (Z.of_nat (S (Z.to_nat (Z.log2 z)))) with (Z.succ (Z.log2 z)) by (pose proof (Z.log2_nonneg z); lia). apply Z.log2_spec. lia.
Qed.
Lemma last_cons {A} (a b : A) l : l <> [] -> last (a :: l) b = last l b.
Proof. destruct l; [congruence|reflexivity]. Qed.

(** ** Frames *)
Lemma is_nat_frame P m m' s n : frame P m m' -> (forall a i, cells_of s a i -> ~ P a i) -> is_nat m s n -> is_nat m' s n.
Proof.
  intros F D (V & W & E & L). split; [eapply frame_valid; eauto|]. rewrite (frame_contents P m m' s) by auto. auto.
Qed.
Lemma is_nat_app m x s n : is_nat m s n -> is_nat (m ++ x) s n.
Proof. apply (is_nat_frame nowhere); [apply frame_app|]. intros ? ? _ []. Qed.
Lemma is_int_app m x b z : is_int m b z -> is_int (m ++ x) b z.
Proof. intros (N & E). split; [apply is_nat_app; exact N|exact E]. Qed.
Lemma is_rat_app m x r q : is_rat m r q -> is_rat (m ++ x) r q.
Proof. intros (N & G & E & D). split; [apply is_int_app; exact N|]. split; [exact G|]. split; [exact E|]. destruct D as [D|[D ?]]; [left|right]; auto using is_nat_app. Qed.
Lemma is_flt_app m x f y : is_flt m f y -> is_flt (m ++ x) f y.
Proof. destruct y; cbn; auto. intros (S & [?|(? & ? & N & ?)]); split; auto. right. auto using is_nat_app. Qed.
Lemma is_nat_new m z : 0 <= z -> let (m', s) := new_words m z in is_nat m' s z /\ new_array m s /\ exists x, m' = m ++ [x].
Proof.
  intros N. unfold new_words. destruct (words_of_ok z N) as (F & E & L). split; [|split; [cbn; lia|eauto]].
  assert (C : contents (m ++ [words_of z]) (Some (Hdr (length m) 0 (length (words_of z)) (length (words_of z)))) = words_of z).
  { unfold contents. cbn [len off arr]. rewrite array_last. cbn [skipn]. apply firstn_all. }
  unfold is_nat. rewrite C. split; [|auto]. cbn [valid arr len cap off]. rewrite array_last, app_length. cbn. lia.
Qed.

(** ** Objects *)
Lemma set_at_same {V} (l : list V) a v : (a < length l)%nat -> nth_error (set_at l a v) a = Some v.
Proof. intros L. unfold set_at. rewrite nth_error_app2; rewrite firstn_length; [|lia]. replace (a - Nat.min a (length l))%nat with 0%nat by lia. reflexivity. Qed.
Lemma set_at_other {V} (l : list V) a b v : (a < length l)%nat -> b <> a -> nth_error (set_at l a v) b = nth_error l b.
Proof.
  intros L N. unfold set_at. destruct (Nat.lt_ge_cases b a).
  - rewrite nth_error_app1 by (rewrite firstn_length; lia). rewrite nth_error_firstn'. destruct (Nat.ltb_spec b a); [reflexivity|lia].
  - rewrite nth_error_app2; rewrite firstn_length; [|lia]. replace (b - Nat.min a (length l))%nat with (S (b - S a)) by lia. cbn [nth_error]. rewrite nth_error_skipn'. f_equal. lia.
Qed.
Lemma nth_app_old {A} (l x : list A) n v : nth_error l n = Some v -> nth_error (l ++ x) n = Some v.
Proof. intros E. rewrite nth_error_app1; [exact E|]. apply nth_error_Some. congruence. Qed.
Lemma nth_app_new {A} (l : list A) v : nth_error (l ++ [v]) (length l) = Some v.
Proof. rewrite nth_error_app2, Nat.sub_diag by lia. reflexivity. Qed.

Lemma load_int_allocated h p b : load_int h p = Some b -> allocated h p.
Proof. destruct p; cbn; intros E; apply nth_error_Some; [congruence|]. destruct (nth_error (rats h) n); [congruence|discriminate]. Qed.
Lemma allocated_load h p : allocated h p -> exists b, load_int h p = Some b.
Proof. destruct p; cbn; intros A; [|]; (destruct (nth_error _ n) eqn:E; [cbn; eauto|apply nth_error_None in E; lia]). Qed.
Lemma iptr_eqb_spec p q : Bool.reflect (p = q) (iptr_eqb p q).
Proof. destruct p as [a|a], q as [b|b]; cbn; try (constructor; congruence); destruct (Nat.eqb_spec a b); constructor; congruence. Qed.

Lemma store_words h p b : words (store_int h p b) = words h.
Proof. destruct p; cbn; [reflexivity|]. destruct (nth_error (rats h) n); reflexivity. Qed.
Lemma store_flts h p b : flts (store_int h p b) = flts h.
Proof. destruct p; cbn; [reflexivity|]. destruct (nth_error (rats h) n); reflexivity. Qed.
Lemma store_load h p b : allocated h p -> load_int (store_int h p b) p = Some b.
Proof.
  destruct p; cbn; intros A; [apply set_at_same; exact A|]. destruct (nth_error (rats h) n) as [r|] eqn:E; [|apply nth_error_None in E; lia]. cbn.
  rewrite set_at_same by exact A. reflexivity.
Qed.
Lemma store_other h p b p' : allocated h p -> p' <> p -> load_int (store_int h p b) p' = load_int h p'.
Proof.
  destruct p as [a|a], p' as [a'|a']; cbn; intros A N.
  - apply set_at_other; [exact A|congruence].
  - reflexivity.
  - destruct (nth_error (rats h) a); reflexivity.
  - destruct (nth_error (rats h) a); cbn; [|reflexivity]. rewrite set_at_other by congruence. reflexivity.
Qed.
Lemma store_rats h p b r : allocated h p -> p <> PNum r -> nth_error (rats (store_int h p b)) r = nth_error (rats h) r.
Proof. destruct p as [a|a]; cbn; intros A N; [reflexivity|]. destruct (nth_error (rats h) a); cbn; [|reflexivity]. apply set_at_other; [exact A|congruence]. Qed.
Lemma store_num h r v b : nth_error (rats h) r = Some v -> nth_error (rats (store_int h (PNum r) b)) r = Some (BR b (rden v)).
Proof. intros E. cbn. rewrite E. cbn. apply set_at_same. apply nth_error_Some. congruence. Qed.

Lemma int_is_load h p z : int_is h p z <-> exists b, load_int h p = Some b /\ is_int (words h) b z.
Proof. reflexivity. Qed.
Lemma store_unchanged h p b : allocated h p -> unchanged_but p h (store_int h p b).
Proof.
  intros A. split; [|split].
  - intros p' z N (c & E & I). exists c. change (load_int (store_int h p b) p' = Some c /\ is_int (words (store_int h p b)) c z). rewrite store_other, store_words by auto. split; [exact E|exact I].
  - intros r q N (v & E & I). exists v. rewrite store_rats, store_words by auto. auto.
  - intros f x (v & E & I). exists v. rewrite store_flts, store_words. auto.
Qed.
Lemma unchanged_but_trans p h h1 h2 : unchanged h h1 -> unchanged_but p h1 h2 -> unchanged_but p h h2.
Proof. intros (A & B & C) (A' & B' & C'). split; [|split]; auto. Qed.

Lemma alloc_int_unchanged h : unchanged h (fst (alloc_int h)).
Proof. split; [|split]; try (intros p z; exact id). intros p z (b & E & I). exists b. split; [|exact I]. destruct p; cbn in *; [apply nth_app_old; exact E|exact E]. Qed.
Lemma alloc_rat_unchanged h : unchanged h (fst (alloc_rat h)).
Proof.
  split; [|split]; try (intros p z; exact id).
  - intros p z (b & E & I). exists b. split; [|exact I]. destruct p; cbn in *; [exact E|]. destruct (nth_error (rats h) n) eqn:N; [|discriminate]. rewrite (nth_app_old _ _ _ _ N). exact E.
  - intros p q (b & E & I). exists b. split; [apply nth_app_old; exact E|exact I].
Qed.
Lemma alloc_flt_unchanged h : unchanged h (fst (alloc_flt h)).
Proof. split; [|split]; try (intros p z; exact id). intros p z (b & E & I). exists b. split; [apply nth_app_old; exact E|exact I]. Qed.

(** ** To of the same type *)
Lemma same_int h p z o : int_is h p z -> (forall q, o = Some q -> allocated h q) ->
  exists q h', to_int_int h (Some p) o = Done (h', Some q) /\ q <> p /\ int_is h' q z /\ unchanged_but q h h' /\ same_words h' p q /\
    (forall q0, o = Some q0 -> q0 <> p -> q = q0) /\ (o = None \/ o = Some p -> ~ allocated h q) /\ allocated h' q /\ words h' = words h.
Proof.
  intros (b & E & I) O. change (load_int h p = Some b) in E. unfold to_int_int, to_same. rewrite E.
  assert (ST : forall h1 q, unchanged h h1 -> words h1 = words h -> allocated h1 q -> load_int h1 p = Some b -> q <> p ->
    q <> p /\ int_is (store_int h1 q b) q z /\ unchanged_but q h (store_int h1 q b) /\ same_words (store_int h1 q b) p q /\ allocated (store_int h1 q b) q /\ words (store_int h1 q b) = words h).
  { intros h1 q U W A L N. split; [exact N|]. split; [|split; [|split; [|split]]].
    - exists b. split; [exact (store_load h1 q b A)|]. rewrite store_words, W. exact I.
    - eapply unchanged_but_trans; [exact U|apply store_unchanged; exact A].
    - exists (iabs b). unfold abs_of. change (option_map iabs (load_int (store_int h1 q b) p) = Some (iabs b) /\ option_map iabs (load_int (store_int h1 q b) q) = Some (iabs b)).
      rewrite store_load by exact A. rewrite store_other by auto. rewrite L. auto.
    - eapply load_int_allocated. apply store_load. exact A.
    - rewrite store_words. exact W. }
  assert (NEW : let h1 := fst (alloc_int h) in let q := snd (alloc_int h) in unchanged h h1 /\ words h1 = words h /\ allocated h1 q /\ load_int h1 p = Some b /\ q <> p /\ ~ allocated h q).
  { cbn. split; [exact (alloc_int_unchanged h)|]. split; [reflexivity|]. split; [rewrite app_length; cbn; lia|]. split; [destruct p; cbn in *; [apply nth_app_old; exact E|exact E]|].
    split; [|lia]. apply load_int_allocated in E. intros <-. cbn in E. lia. }
  cbn zeta in NEW. destruct NEW as (U & W & A & L & N & NA).
  destruct o as [q|].
  - destruct (iptr_eqb_spec p q) as [<-|D].
    + destruct (ST _ _ U W A L N) as (S1 & S2 & S3 & S4 & S5 & S6). exists (PInt (length (ints h))), (store_int (fst (alloc_int h)) (PInt (length (ints h))) b). split; [reflexivity|].
      do 4 (split; [assumption|]). split; [intros q0 [= <-] []; reflexivity|]. auto.
    + assert (N' : q <> p) by congruence. destruct (ST h q) as (S1 & S2 & S3 & S4 & S5 & S6); auto; [split; [|split]; auto|].
      exists q, (store_int h q b). split; [reflexivity|]. do 4 (split; [assumption|]). split; [intros q0 [= <-]; auto|]. split; [intros [X|X]; congruence|auto].
  - destruct (ST _ _ U W A L N) as (S1 & S2 & S3 & S4 & S5 & S6). exists (PInt (length (ints h))), (store_int (fst (alloc_int h)) (PInt (length (ints h))) b). split; [reflexivity|].
    do 4 (split; [assumption|]). split; [intros q0 [=]|]. auto.
Qed.

Lemma store_rat_unchanged h p v : (p < length (rats h))%nat -> unchanged_but_rat p h (store_rat h p v).
Proof.
  intros A. split; [|split].
  - intros p' z N (c & E & I). exists c. split; [|exact I]. destruct p' as [n|n]; cbn in *; [exact E|]. rewrite set_at_other by (auto; congruence). exact E.
  - intros r q N (c & E & I). exists c. split; [|exact I]. cbn. rewrite set_at_other by auto. exact E.
  - intros f x; exact id.
Qed.
Lemma same_rat h p x o : rat_is h p x -> (forall q, o = Some q -> (q < length (rats h))%nat) ->
  exists q h', to_rat_rat h (Some p) o = Done (h', Some q) /\ q <> p /\ rat_is h' q x /\ unchanged_but_rat q h h' /\ same_words h' (PNum p) (PNum q) /\
    (forall q0, o = Some q0 -> q0 <> p -> q = q0) /\ (o = None \/ o = Some p -> (length (rats h) <= q)%nat).
Proof.
  intros (b & E & I) O. unfold to_rat_rat, to_same, load_rat. rewrite E.
  assert (LP : (p < length (rats h))%nat) by (apply nth_error_Some; congruence).
  assert (ST : forall h1 q, unchanged h h1 -> words h1 = words h -> (q < length (rats h1))%nat -> nth_error (rats h1) p = Some b -> q <> p ->
    rat_is (store_rat h1 q b) q x /\ unchanged_but_rat q h (store_rat h1 q b) /\ same_words (store_rat h1 q b) (PNum p) (PNum q)).
  { intros h1 q (U1 & U2 & U3) W A L N. split; [|split].
    - exists b. split; [cbn; apply set_at_same; exact A|]. cbn. rewrite W. exact I.
    - destruct (store_rat_unchanged h1 q b A) as (V1 & V2 & V3). split; [|split]; auto.
    - exists (iabs (rnum b)). unfold abs_of. cbn. rewrite set_at_same by exact A. rewrite set_at_other by auto. rewrite L. auto. }
  assert (NEW := alloc_rat_unchanged h). cbn in NEW.
  assert (LN : nth_error (rats h ++ [BR zero_int zero_int]) p = Some b) by (apply nth_app_old; exact E).
  assert (G : exists h', Done (store_rat (fst (alloc_rat h)) (length (rats h)) b, Some (length (rats h))) = Done (h', Some (length (rats h))) /\ length (rats h) <> p /\ rat_is h' (length (rats h)) x /\ unchanged_but_rat (length (rats h)) h h' /\ same_words h' (PNum p) (PNum (length (rats h)))).
  { destruct (ST _ (length (rats h)) NEW) as (S1 & S2 & S3); [reflexivity|cbn; rewrite app_length; cbn; lia|exact LN|lia|]. eexists. split; [reflexivity|]. split; [lia|]. auto. }
  destruct G as (h' & G1 & G2 & G3 & G4 & G5).
  destruct o as [q|].
  - destruct (Nat.eqb_spec p q) as [<-|D].
    + exists (length (rats h)), h'. split; [exact G1|]. do 4 (split; [assumption|]). split; [intros q0 [= <-] []; reflexivity|lia].
    + destruct (ST h q) as (S1 & S2 & S3); auto; [split; [|split]; auto|].
      exists q, (store_rat h q b). split; [reflexivity|]. split; [congruence|]. do 3 (split; [assumption|]). split; [intros q0 [= <-]; auto|intros [X|X]; congruence].
  - exists (length (rats h)), h'. split; [exact G1|]. do 4 (split; [assumption|]). split; [intros q0 [=]|lia].
Qed.

Lemma same_flt h p x o : flt_is h p x -> (forall q, o = Some q -> (q < length (flts h))%nat) ->
  exists q h', to_flt_flt h (Some p) o = Done (h', Some q) /\ q <> p /\ flt_is h' q x /\ unchanged_but_flt q h h' /\
    (forall f f', nth_error (flts h') p = Some f -> nth_error (flts h') q = Some f' -> fmant f = fmant f') /\
    (forall q0, o = Some q0 -> q0 <> p -> q = q0) /\ (o = None \/ o = Some p -> (length (flts h) <= q)%nat).
Proof.
  intros (b & E & I) O. unfold to_flt_flt, to_same, load_flt. rewrite E.
  assert (LP : (p < length (flts h))%nat) by (apply nth_error_Some; congruence).
  assert (ST : forall h1 q, unchanged h h1 -> words h1 = words h -> (q < length (flts h1))%nat -> nth_error (flts h1) p = Some b -> q <> p ->
    flt_is (store_flt h1 q b) q x /\ unchanged_but_flt q h (store_flt h1 q b) /\
    (forall f f', nth_error (flts (store_flt h1 q b)) p = Some f -> nth_error (flts (store_flt h1 q b)) q = Some f' -> fmant f = fmant f')).
  { intros h1 q (U1 & U2 & U3) W A L N. split; [|split].
    - exists b. split; [cbn; apply set_at_same; exact A|]. cbn. rewrite W. exact I.
    - split; [|split]; [intros; apply U1; auto|intros; apply U2; auto|]. intros f y D Y. destruct (U3 _ _ Y) as (c & C & J). exists c. split; [cbn; rewrite set_at_other by auto; exact C|exact J].
    - cbn. intros f f'. rewrite set_at_same by exact A. rewrite set_at_other by auto. rewrite L. congruence. }
  assert (NEW := alloc_flt_unchanged h). cbn in NEW.
  assert (G : exists h', Done (store_flt (fst (alloc_flt h)) (length (flts h)) b, Some (length (flts h))) = Done (h', Some (length (flts h))) /\ length (flts h) <> p /\ flt_is h' (length (flts h)) x /\ unchanged_but_flt (length (flts h)) h h' /\
    (forall f f', nth_error (flts h') p = Some f -> nth_error (flts h') (length (flts h)) = Some f' -> fmant f = fmant f')).
  { destruct (ST _ (length (flts h)) NEW) as (S1 & S2 & S3); [reflexivity|cbn; rewrite app_length; cbn; lia|cbn; apply nth_app_old; exact E|lia|]. eexists. split; [reflexivity|]. split; [lia|]. auto. }
  destruct G as (h' & G1 & G2 & G3 & G4 & G5).
  destruct o as [q|].
  - destruct (Nat.eqb_spec p q) as [<-|D].
    + exists (length (flts h)), h'. split; [exact G1|]. do 4 (split; [assumption|]). split; [intros q0 [= <-] []; reflexivity|lia].
    + destruct (ST h q) as (S1 & S2 & S3); auto; [split; [|split]; auto|].
      exists q, (store_flt h q b). split; [reflexivity|]. split; [congruence|]. do 3 (split; [assumption|]). split; [intros q0 [= <-]; auto|intros [X|X]; congruence].
  - exists (length (flts h)), h'. split; [exact G1|]. do 4 (split; [assumption|]). split; [intros q0 [=]|lia].
Qed.

(** ** Writing to a number *)
Lemma set_word_none m w : 0 < w < base -> let (m', s) := set_word m None w in is_nat m' s w /\ m' = m ++ [[w]].
Proof.
  intros R. unfold set_word. destruct (Z.eqb_spec w 0); [lia|]. split; [|reflexivity].
  assert (C : contents (m ++ [[w]]) (Some (Hdr (length m) 0 1 1)) = [w]) by (unfold contents; cbn [len off arr]; rewrite array_last; reflexivity).
  unfold is_nat. rewrite C. split; [cbn [valid arr len cap off]; rewrite array_last, app_length; cbn; lia|]. split; [constructor; [unfold word; lia|constructor]|]. cbn [nat_of last]. split; [ring|lia].
Qed.
Lemma set_word_ok m s w : valid m s -> 0 <= w < base -> let (m', s') := set_word m s w in
  is_nat m' s' w /\ frame (fun a i => match s with Some d => a = arr d /\ i = off d | None => False end) m m'.
Proof.
  intros V R. destruct (Z.eq_dec w 0) as [->|N].
  { unfold set_word. rewrite Z.eqb_refl. split; [|apply frame_refl]. unfold is_nat. destruct s as [d|]; cbn; [|repeat split; [constructor|lia]]. destruct V as (V1 & V2 & V3). repeat split; try lia; constructor. }
  destruct s as [d|]; [|pose proof (set_word_none m w) as H; destruct (set_word m None w) as [m' s']; destruct H as [H ->]; [lia|]; split; [exact H|apply frame_app]].
  unfold set_word. destruct (Z.eqb_spec w 0); [lia|]. destruct (Nat.leb_spec 1 (cap d)) as [L|L].
  - destruct V as (V1 & V2 & V3). 
    assert (C : contents (upd m (arr d) (write_at (array m (arr d)) (off d) [w])) (Some (Hdr (arr d) (off d) 1 (cap d))) = [w]).
    { apply nth_error_ext. intros k. rewrite contents_nth. cbn [len arr off]. unfold cell. rewrite array_upd, Nat.eqb_refl by exact V1.
      destruct (Nat.ltb_spec k 1); [|symmetry; apply nth_error_None; cbn; lia]. rewrite write_at_nth by (cbn; lia). replace k with 0%nat by lia. rewrite Nat.add_0_r.
      destruct (Nat.ltb_spec (off d) (off d)); [lia|]. cbn [length]. destruct (Nat.ltb_spec (off d) (off d + 1)); [|lia]. rewrite Nat.sub_diag. reflexivity. }
    split.
    + unfold is_nat. rewrite C. split; [|split; [constructor; [unfold word; lia|constructor]|cbn [nat_of last]; split; [ring|lia]]].
      cbn [valid arr len cap off]. rewrite upd_length, array_upd, Nat.eqb_refl by exact V1. rewrite write_at_length by (cbn; lia). lia.
    + apply frame_upd; [exact V1|cbn; lia|]. cbn. intros k K. split; [reflexivity|lia].
  - pose proof (set_word_none m w) as H. unfold set_word in H. destruct (Z.eqb_spec w 0); [lia|]. destruct H as [H _]; [lia|]. split; [exact H|apply frame_app].
Qed.

(** the words of another number with the same slice: the lowest is replaced *)
Lemma shared_nat m s n w : is_nat m s n -> n <> 0 -> 0 < w < base -> is_nat (fst (set_word m s w)) s (n - n mod base + w).
Proof.
  intros (V & W & E & L) N R. pose proof base_pos as B. destruct s as [d|]; [|cbn in E; lia]. unfold set_word. destruct (Z.eqb_spec w 0); [lia|].
  assert (CL := contents_length m (Some d) V). cbn [slen] in CL.
  assert (LN : (1 <= len d)%nat) by (destruct (contents m (Some d)) as [|x l] eqn:C; [cbn in E; lia|cbn in CL; lia]).
  destruct V as (V1 & V2 & V3). destruct (Nat.leb_spec 1 (cap d)); [|lia]. cbn [fst].
  destruct (contents m (Some d)) as [|w0 l] eqn:C; [cbn in CL; lia|].
  assert (C' : contents (upd m (arr d) (write_at (array m (arr d)) (off d) [w])) (Some d) = w :: l).
  { apply nth_error_ext. intros k. rewrite contents_nth. unfold cell. rewrite array_upd, Nat.eqb_refl by exact V1.
    assert (Ck : nth_error (contents m (Some d)) k = nth_error (w0 :: l) k) by (rewrite C; reflexivity). rewrite contents_nth in Ck. unfold cell in Ck. destruct (Nat.ltb_spec k (len d)) as [K|K].
    - rewrite write_at_nth by (cbn; lia). cbn [length]. destruct k as [|k].
      + rewrite Nat.add_0_r. destruct (Nat.ltb_spec (off d) (off d)); [lia|]. destruct (Nat.ltb_spec (off d) (off d + 1)); [|lia]. rewrite Nat.sub_diag. reflexivity.
      + destruct (Nat.ltb_spec (off d + S k) (off d)); [lia|]. destruct (Nat.ltb_spec (off d + S k) (off d + 1)); [lia|]. exact Ck.
    - symmetry. apply nth_error_None. cbn in CL |- *. lia. }
  inversion W as [|? ? W0 Wl]; subst. unfold is_nat. rewrite C'. split; [|split; [constructor; [unfold word; lia|exact Wl]|split]].
  - cbn [valid]. rewrite upd_length, array_upd, Nat.eqb_refl by exact V1. rewrite write_at_length by (cbn; lia). lia.
  - cbn [nat_of]. rewrite (Z.mul_comm base), Z.mod_add by lia. rewrite Z.mod_small by exact W0. lia.
  - destruct l as [|x l]; [cbn; lia|]. exact L.
Qed.

Lemma set_int64_own h q z v : int_is h q z -> Z.abs v < base -> exists h2, set_int64 h q v = Done h2 /\ int_is h2 q v.
Proof.
  intros (b & E & (V & _) & _) R. change (load_int h q = Some b) in E. unfold set_int64. rewrite E. pose proof (set_word_ok (words h) (iabs b) (Z.abs v) V) as H.
  destruct (set_word (words h) (iabs b) (Z.abs v)) as [m s]. destruct H as [H _]; [lia|]. eexists. split; [reflexivity|].
  exists (BI (v <? 0) s). split; [apply (store_load (mkHeap m (ints h) (rats h) (flts h)))|]. 
  - apply load_int_allocated in E. exact E.
  - rewrite store_words. split; [exact H|reflexivity].
Qed.

Lemma shared_written h p q z v : p <> q -> same_words h p q -> int_is h p z -> z <> 0 -> 0 < Z.abs v < 2 ^ 64 ->
  exists h2, set_int64 h q v = Done h2 /\ int_is h2 q v /\ int_is h2 p (low_word_replaced z (Z.abs v)).
Proof.
  intros D (s & SP & SQ) (b & E & N & G) NZ R. change (load_int h p = Some b) in E. change (2 ^ 64) with base in R.
  change (option_map iabs (load_int h p) = Some s) in SP. change (option_map iabs (load_int h q) = Some s) in SQ. rewrite E in SP. injection SP as <-.
  destruct (load_int h q) as [c|] eqn:F; [|discriminate]. injection SQ as SQ.
  pose proof (set_word_ok (words h) (iabs b) (Z.abs v)) as H. pose proof (shared_nat (words h) (iabs b) (Z.abs z) (Z.abs v) N) as K.
  unfold set_int64. rewrite F, SQ. destruct (set_word (words h) (iabs b) (Z.abs v)) as [m s]. destruct H as [H _]; [exact (proj1 N)|lia|]. specialize (K ltac:(lia) R). cbn [fst] in K.
  assert (A : allocated (mkHeap m (ints h) (rats h) (flts h)) q) by (apply load_int_allocated in F; exact F).
  eexists. split; [reflexivity|]. split.
  - exists (BI (v <? 0) s). split; [apply store_load; exact A|]. rewrite store_words. split; [exact H|reflexivity].
  - exists b. split; [|].
    + change (load_int (store_int (mkHeap m (ints h) (rats h) (flts h)) q (BI (v <? 0) s)) p = Some b). rewrite store_other by auto. exact E.
    + rewrite store_words. unfold low_word_replaced. change (2 ^ 64) with base. pose proof base_pos. pose proof (Z.mod_pos_bound (Z.abs z) base). pose proof (Z.mod_le (Z.abs z) base).
      assert (P : 0 < Z.abs z - Z.abs z mod base + Z.abs v) by lia. split.
      * cbn [words]. rewrite Z.abs_mul, (Z.abs_eq (_ + _)) by lia. replace (Z.abs (Z.sgn z)) with 1 by (destruct z; cbn; lia). rewrite Z.mul_1_l. exact K.
      * rewrite G. destruct z; cbn [Z.sgn]; lia.
Qed.

(** ** new(big.Int).Set(x) *)
Lemma new_set_copy h p z : int_is h p z -> exists h1 q, new_set h p = Done (h1, q) /\ ~ allocated h q /\ q <> p /\ int_is h1 q z /\ unchanged h h1 /\
  forall v, Z.abs v < base -> (exists h2, set_int64 h1 q v = Done h2 /\ int_is h2 q v /\ int_is h2 p z) /\ (exists h2, set_int64 h1 p v = Done h2 /\ int_is h2 p v /\ int_is h2 q z).
Proof.
  intros (b & E & N & G). pose proof E as E0. change (load_int h p = Some b) in E. unfold new_set. rewrite E. set (l := contents (words h) (iabs b)).
  set (m := match l with [] => words h | _ => words h ++ [l] end). set (s := match l with [] => None | _ => Some (Hdr (length (words h)) 0 (length l) (length l)) end).
  set (h1 := mkHeap m (ints h ++ [BI (ineg b) s]) (rats h) (flts h)). set (q := PInt (length (ints h))).
  assert (M : m = words h \/ exists x, m = words h ++ x) by (unfold m; destruct l; [left; reflexivity|right; eauto]).
  assert (U : unchanged h h1).
  { split; [|split].
    - intros p' z' (c & C & I). exists c. split; [destruct p'; cbn in *; [apply nth_app_old; exact C|exact C]|]. cbn. destruct M as [->|(x & ->)]; [exact I|apply is_int_app; exact I].
    - intros r x (c & C & I). exists c. split; [exact C|]. cbn. destruct M as [->|(y & ->)]; [exact I|apply is_rat_app; exact I].
    - intros f x (c & C & I). exists c. split; [exact C|]. cbn. destruct M as [->|(y & ->)]; [exact I|apply is_flt_app; exact I]. }
  assert (S : is_nat m s (Z.abs z)).
  { destruct N as (V & W & X & L). fold l in W, X, L. unfold m, s. destruct l as [|w r] eqn:EL; [split; [exact I|]; cbn in *; auto|].
    assert (C : contents (words h ++ [w :: r]) (Some (Hdr (length (words h)) 0 (length (w :: r)) (length (w :: r)))) = w :: r).
    { unfold contents. cbn [len off arr]. rewrite array_last. cbn [skipn]. apply firstn_all. }
    unfold is_nat. rewrite C. split; [|auto]. cbn [valid arr len cap off]. rewrite array_last, app_length. cbn. lia. }
  assert (Q : load_int h1 q = Some (BI (ineg b) s)) by (cbn; apply nth_app_new).
  assert (P : load_int h1 p = Some b) by (unfold h1; destruct p; cbn in *; [apply nth_app_old; exact E|exact E]).
  assert (D : q <> p) by (apply load_int_allocated in E; intros <-; cbn in E; lia).
  assert (SEP : forall d d', iabs b = Some d -> s = Some d' -> arr d <> arr d').
  { intros d d' D1 D2. destruct N as (V & _). rewrite D1 in V. destruct V as (V & _). unfold s in D2. destruct l; [discriminate|]. injection D2 as <-. cbn. lia. }
  assert (NB : is_nat m (iabs b) (Z.abs z)) by (destruct M as [->|(x & ->)]; [exact N|apply is_nat_app; exact N]).
  exists h1, q. split; [reflexivity|]. split; [cbn; lia|]. split; [exact D|]. split; [exists (BI (ineg b) s); split; [exact Q|split; [exact S|exact G]]|]. split; [exact U|].
  intros v R.
  assert (OTHER : forall a b1 b2 c, load_int h1 a = Some b1 -> load_int h1 c = Some b2 -> a <> c -> is_nat m (iabs b1) (Z.abs z) -> is_nat m (iabs b2) (Z.abs z) -> ineg b2 = (z <? 0) ->
    (forall d d', iabs b1 = Some d -> iabs b2 = Some d' -> arr d <> arr d') -> exists h2, set_int64 h1 a v = Done h2 /\ int_is h2 a v /\ int_is h2 c z).
  { intros a b1 b2 c L1 L2 NE N1 N2 G2 DJ. unfold set_int64. rewrite L1. pose proof (set_word_ok m (iabs b1) (Z.abs v) (proj1 N1)) as H. change (words h1) with m.
    destruct (set_word m (iabs b1) (Z.abs v)) as [m' s']. destruct H as [H F]; [lia|].
    assert (A : allocated (mkHeap m' (ints h1) (rats h1) (flts h1)) a) by (apply load_int_allocated in L1; exact L1).
    eexists. split; [reflexivity|]. split.
    - exists (BI (v <? 0) s'). split; [apply store_load; exact A|]. rewrite store_words. split; [exact H|reflexivity].
    - exists b2. split; [change (load_int (store_int (mkHeap m' (ints h1) (rats h1) (flts h1)) a (BI (v <? 0) s')) c = Some b2); rewrite store_other by auto; exact L2|].
      rewrite store_words. split; [|exact G2]. eapply is_nat_frame; [exact F| |exact N2]. intros x i CI FI. destruct (iabs b1) as [d|] eqn:X1; [|exact FI]. destruct (iabs b2) as [d'|] eqn:X2; [|exact CI].
      cbn in CI. destruct CI as [-> _]. destruct FI as [FI _]. apply (DJ d d'); auto. }
  split; [apply (OTHER q _ _ p Q P); auto|apply (OTHER p _ _ q P Q); auto; congruence].
  intros d d' D1 D2 X. cbn in D1. apply (SEP d' d); auto.
Qed.

(** ** A loop with one output variable *)
Lemma to_each_same q : forall ps zs h, Forall2 (int_is h) ps zs -> ~ In q ps -> allocated h q -> forall z0, int_is h q z0 ->
  exists h', to_each h (map Some ps) (Some q) = Done (h', repeat (Some q) (length ps)) /\ int_is h' q (last zs z0) /\ forall p z, p <> q -> int_is h p z -> int_is h' p z.
Proof.
  induction ps as [|p ps IH]; intros zs h F NI A z0 I0; inversion F as [|? z ? zs' I F']; subst; cbn [map to_each].
  - exists h. split; [reflexivity|]. split; [exact I0|auto].
  - destruct (same_int h p z (Some q) I) as (q1 & h1 & E & D & I1 & (U & _ & _) & _ & O & _ & A1 & _); [intros ? [= <-]; exact A|].
    assert (q1 = q) as -> by (apply O; [reflexivity|intros ->; apply NI; left; reflexivity]). rewrite E. cbn [obind].
    assert (KEEP : Forall2 (int_is h1) ps zs').
    { assert (NI' : ~ In q ps) by (intros X; apply NI; right; exact X). clear - F' NI' U. induction F'; constructor; [apply U; [intros ->; apply NI'; left; reflexivity|auto]|]. apply IHF'. intros X. apply NI'. right. exact X. }
    destruct (IH zs' h1 KEEP (fun X => NI (or_intror X)) A1 z I1) as (h2 & E2 & I2 & F2). exists h2. rewrite E2. cbn [obind]. split; [reflexivity|]. split.
    + replace (last (z :: zs') z0) with (last zs' z); [exact I2|]. clear. revert z. induction zs' as [|y zs IH]; intros z; [reflexivity|]. destruct zs as [|x zs]; [reflexivity|]. exact (IH z).
    + intros p' z' N I'. apply F2; auto.
Qed.
Lemma to_each_one h p ps z zs : Forall2 (int_is h) (p :: ps) (z :: zs) ->
  exists h' q, to_each h (map Some (p :: ps)) None = Done (h', repeat (Some q) (length (p :: ps))) /\ ~ allocated h q /\ int_is h' q (last zs z) /\ Forall2 (int_is h') (p :: ps) (z :: zs).
Proof.
  intros F. assert (AL : forall p', In p' (p :: ps) -> allocated h p').
  { clear - F. remember (p :: ps) as l. remember (z :: zs) as k. clear Heql Heqk. induction F as [|p0 z0 l k (b & E & _) F IH]; intros p' []; [subst; eapply load_int_allocated; exact E|auto]. }
  inversion F as [|? ? ? ? I F']; subst. destruct (same_int h p z None I) as (q & h1 & E & D & I1 & (U & _ & _) & _ & _ & NA & A1 & _); [discriminate|]. specialize (NA (or_introl eq_refl)).
  assert (NI : ~ In q ps) by (intros X; apply NA; apply AL; right; exact X).
  assert (KEEP : Forall2 (int_is h1) ps zs).
  { clear - F' NI U. induction F'; constructor; [apply U; [intros ->; apply NI; left; reflexivity|auto]|]. apply IHF'. intros X. apply NI. right. exact X. }
  destruct (to_each_same q ps zs h1 KEEP NI A1 z I1) as (h2 & E2 & I2 & K2). exists h2, q. cbn [map to_each]. rewrite E. cbn [obind]. rewrite E2. cbn [obind]. split; [reflexivity|]. split; [exact NA|]. split; [exact I2|].
  constructor; [apply K2; [congruence|apply U; [congruence|exact I]]|]. clear - KEEP NI K2. induction KEEP; constructor; [apply K2; [intros ->; apply NI; left; reflexivity|auto]|]. apply IHKEEP. intros X. apply NI. right. exact X.
Qed.

(** ** Numerators *)
Lemma zero_words l : Forall word l -> nat_of l = 0 -> last l 1 <> 0 -> l = [].
Proof.
  pose proof base_pos as B. intros W. induction W as [|a l W1 W2 IH]; intros Z L; [reflexivity|]. exfalso. cbn in Z. pose proof (nat_of_nonneg l W2). unfold word in W1.
  assert (a = 0 /\ nat_of l = 0) as [-> Z2] by nia. destruct l as [|b l]; [apply L; reflexivity|]. assert (X := IH Z2 L). discriminate.
Qed.
Lemma rat_to_int_spec h r q o : rat_is h r q -> rat_to_int h r o = Done (if Pos.eqb (Qden q) 1 then (None, Some (PNum r)) else (Some conv_err, o)) /\ int_is h (PNum r) (Qnum q).
Proof.
  intros (v & E & N & G & QR & D). split; [|exists (rnum v); split; [rewrite E; reflexivity|exact N]]. unfold rat_to_int, load_rat. rewrite E. unfold rat_is_int.
  assert (H : (match contents (words h) (iabs (rden v)) with [] => true | [w] => w =? 1 | _ => false end) = Pos.eqb (Qden q) 1).
  { pose proof base_pos. destruct D as [(_ & W & S & L)|[(_ & W & S & L) D]].
    - destruct (contents (words h) (iabs (rden v))) as [|w [|w' l]]; [cbn in S; lia|cbn in S; destruct (Pos.eqb_spec (Qden q) 1); lia|].
      inversion W as [|? ? W0 W1]; subst. destruct (Pos.eqb_spec (Qden q) 1) as [X|X]; [|reflexivity]. rewrite X in S. remember (w' :: l) as k. cbn [nat_of] in S.
      pose proof (nat_of_nonneg k W1) as NN. unfold word in W0. assert (nat_of k = 0) by nia. rewrite last_cons in L by (subst k; discriminate). rewrite (zero_words k) in Heqk by assumption. discriminate.
    - rewrite D. cbn. rewrite (zero_words (contents (words h) (iabs (rden v)))) by assumption. reflexivity. }
  rewrite H. destruct (Pos.eqb (Qden q) 1); reflexivity.
Qed.
Lemma Qred_int z : Qred (inject_Z z) = inject_Z z.
Proof.
  unfold inject_Z, Qred. pose proof (Z.ggcd_gcd z 1) as GG. pose proof (Z.ggcd_correct_divisors z 1) as GV. destruct (Z.ggcd z 1) as [g [a c]]. cbn [fst snd] in *. rewrite Z.gcd_1_r in GG. subst g. destruct GV as [G1 G2].
  assert (c = 1) as -> by lia. cbn [Z.to_pos]. f_equal. lia.
Qed.
Lemma rat_den_one m v n : is_rat m v (inject_Z n) -> forall b z, is_int m b z -> is_rat m (BR b (rden v)) (inject_Z z).
Proof. intros (_ & G & _ & D) b z I. split; [exact I|]. split; [exact G|]. split; [apply Qred_int|exact D]. Qed.
Lemma second_conversion h r n p z : rat_is h r (inject_Z n) -> int_is h p z -> p <> PNum r ->
  exists h', to_int_int h (Some p) (Some (PNum r)) = Done (h', Some (PNum r)) /\ rat_is h' r (inject_Z z) /\ int_is h' p z.
Proof.
  intros (v & E & R) (b & L & I) D. change (load_int h p = Some b) in L. unfold to_int_int, to_same. rewrite L. destruct (iptr_eqb_spec p (PNum r)); [congruence|]. eexists. split; [reflexivity|].
  assert (A : allocated h (PNum r)) by (cbn; apply nth_error_Some; congruence). split.
  - exists (BR b (rden v)). split; [apply store_num; exact E|]. rewrite store_words. eapply rat_den_one; eauto.
  - apply (proj1 (store_unchanged h (PNum r) b A)); [exact D|]. exists b. split; [exact L|exact I].
Qed.
Lemma numerator_written h r n v : rat_is h r (inject_Z n) -> Z.abs v < base ->
  (forall b, option_map rnum (nth_error (rats h) r) = Some b -> forall d, option_map rden (nth_error (rats h) r) = Some d -> forall s s', iabs b = Some s -> iabs d = Some s' -> arr s <> arr s') ->
  exists h', set_int64 h (PNum r) v = Done h' /\ int_is h' (PNum r) v /\ rat_is h' r (inject_Z v).
Proof.
  intros (x & E & R) V SEP. unfold set_int64. cbn [load_int]. rewrite E. cbn [option_map]. pose proof R as ((NN & _) & GD & _ & DEN). rewrite E in SEP. cbn in SEP. specialize (SEP _ eq_refl _ eq_refl).
  pose proof (set_word_ok (words h) (iabs (rnum x)) (Z.abs v) (proj1 NN)) as H. destruct (set_word (words h) (iabs (rnum x)) (Z.abs v)) as [m s]. destruct H as [H F]; [lia|].
  eexists. split; [reflexivity|]. set (h1 := mkHeap m (ints h) (rats h) (flts h)).
  assert (E1 : nth_error (rats (store_int h1 (PNum r) (BI (v <? 0) s))) r = Some (BR (BI (v <? 0) s) (rden x))) by (apply store_num; exact E).
  assert (I : is_int m (BI (v <? 0) s) v) by (split; [exact H|reflexivity]).
  assert (DJ : forall a i, cells_of (iabs (rden x)) a i -> ~ match iabs (rnum x) with Some d => a = arr d /\ i = off d | None => False end).
  { intros a i C X. destruct (iabs (rden x)) as [d|]; [|exact C]. destruct (iabs (rnum x)) as [d'|]; [|exact X]. cbn in C. destruct C as [-> _], X as [X _]. eapply SEP; eauto. }
  split; [|].
  - exists (BI (v <? 0) s). split; [rewrite E1; reflexivity|]. rewrite store_words. exact I.
  - exists (BR (BI (v <? 0) s) (rden x)). split; [exact E1|]. rewrite store_words. apply (rat_den_one m (BR (BI (v <? 0) s) (rden x)) v) with (b := BI (v <? 0) s); [|exact I].
    split; [exact I|]. split; [exact GD|]. cbn [rden]. split; [apply Qred_int|destruct DEN as [DEN|[DEN X]]; [left|right; split; [|exact X]]; (eapply is_nat_frame; [exact F|exact DJ|exact DEN])].
Qed.

(** ** The other conversions *)
Lemma is_int_at h b z : is_int (words h) b z -> int_at h b = z.
Proof. intros ((_ & _ & E & _) & G). unfold int_at, sgn_of. rewrite E, G. destruct (Z.ltb_spec z 0); lia. Qed.
Lemma rat_at_ok h r q : is_rat (words h) r q -> rat_at h r = q.
Proof.
  intros (N & G & R & D). unfold rat_at. rewrite (is_int_at h _ _ N). destruct D as [(_ & W & E & L)|[(_ & W & E & L) D]].
  - destruct (contents (words h) (iabs (rden r))); [cbn in E; lia|]. rewrite E. destruct q. reflexivity.
  - rewrite (zero_words _ W E L). destruct q. cbn in *. subst. reflexivity.
Qed.
Lemma flt_at_ok h f x : is_flt (words h) f x -> flt_at h f = x.
Proof. unfold flt_at. destruct x; cbn; [tauto| |]; [intros (-> & ->); reflexivity|]. intros (-> & [(-> & -> & ->)|(-> & _ & (_ & _ & E & _) & ->)]); [reflexivity|]. rewrite E. reflexivity. Qed.
Lemma read_holds h v g : holds h v g -> read h v = Done g.
Proof.
  destruct v as [[p|]|[p|]|[p|]|v], g; cbn; try tauto; try (intros [X Y]; congruence).
  - intros (b & E & I). change (load_int h p = Some b) in E. rewrite E. rewrite (is_int_at h b z I). reflexivity.
  - intros (b & E & I). unfold load_flt. rewrite E, (flt_at_ok h b x I). reflexivity.
  - intros (b & E & I). unfold load_rat. rewrite E, (rat_at_ok h b q I). reflexivity.
Qed.
Lemma unchanged_refl h : unchanged h h.
Proof. split; [|split]; auto. Qed.
Lemma app_unchanged h x i r f : unchanged h (mkHeap (words h ++ x) (ints h ++ i) (rats h ++ r) (flts h ++ f)).
Proof.
  split; [|split].
  - intros p z (b & E & I). exists b. split; [|cbn; apply is_int_app; exact I]. destruct p; cbn in *; [apply nth_app_old; exact E|]. destruct (nth_error (rats h) n) eqn:N; [|discriminate]. rewrite (nth_app_old _ _ _ _ N). exact E.
  - intros p q (b & E & I). exists b. split; [apply nth_app_old; exact E|apply is_rat_app; exact I].
  - intros p q (b & E & I). exists b. split; [apply nth_app_old; exact E|apply is_flt_app; exact I].
Qed.
Lemma new_int_ok h z : let (h', p) := new_int h z in int_is h' p z /\ unchanged h h' /\ brand_new h h' (HInt (Some p)).
Proof.
  unfold new_int. pose proof (is_nat_new (words h) (Z.abs z) ltac:(lia)) as H. destruct (new_words (words h) (Z.abs z)) as [m s]. destruct H as (N & A & x & ->).
  split; [exists (BI (z <? 0) s); split; [apply nth_app_new|split; [exact N|reflexivity]]|]. split.
  - pose proof (app_unchanged h [x] [BI (z <? 0) s] [] []) as U. rewrite !app_nil_r in U. exact U.
  - split; [cbn; lia|]. unfold abs_of. cbn [ints]. rewrite nth_app_new. cbn. intros ? [= <-]. exact A.
Qed.
Lemma new_rat_ok h q : Qred q = q -> let (h', p) := new_rat h q in rat_is h' p q /\ unchanged h h' /\ brand_new h h' (HRat (Some p)) /\ brand_new h h' (HInt (Some (PNum p))).
Proof.
  intros R. unfold new_rat. pose proof (is_nat_new (words h) (Z.abs (Qnum q)) ltac:(lia)) as H. destruct (new_words (words h) (Z.abs (Qnum q))) as [m s]. destruct H as (N & A & x & ->).
  pose proof (is_nat_new (words h ++ [x]) (Zpos (Qden q)) ltac:(lia)) as H. destruct (new_words (words h ++ [x]) (Zpos (Qden q))) as [m d]. destruct H as (N' & A' & y & ->).
  assert (A2 : new_array (words h) d) by (destruct d as [d|]; [cbn in *; rewrite app_length in A'; cbn in A'; lia|exact I]).
  split; [exists (BR (BI (Qnum q <? 0) s) (BI false d)); split; [apply nth_app_new|]|].
  - split; [split; [apply is_nat_app; exact N|reflexivity]|]. split; [reflexivity|]. split; [exact R|left; exact N'].
  - split; [pose proof (app_unchanged h ([x] ++ [y]) [] [BR (BI (Qnum q <? 0) s) (BI false d)] []) as U; rewrite !app_nil_r, app_assoc in U; exact U|]. split.
    + split; [lia|]. cbn [rats]. rewrite nth_app_new. intros ? [= <-]. auto.
    + split; [cbn; lia|]. unfold abs_of. cbn [rats]. rewrite nth_app_new. cbn. intros ? [= <-]. exact A.
Qed.
Lemma new_flt_ok h x : x <> NaN -> match x with Fin _ m _ => 0 <= m | _ => True end -> let (h', p) := new_flt h x in flt_is h' p x /\ unchanged h h' /\ brand_new h h' (HFlt (Some p)).
Proof.
  intros NN P. unfold new_flt. destruct x as [|neg|neg m e]; [congruence| |].
  - split; [eexists; split; [apply nth_app_new|split; reflexivity]|]. split; [pose proof (app_unchanged h [] [] [] [BF FInf neg None 0]) as U; rewrite !app_nil_r in U; exact U|]. split; [cbn; lia|]. cbn [flts]. rewrite nth_app_new. intros ? [= <-]. exact I.
  - pose proof (is_nat_new (words h) m P) as H. destruct (new_words (words h) m) as [w s]. destruct H as (N & A & x & ->).
    split; [eexists; split; [apply nth_app_new|]|].
    + split; [reflexivity|]. cbn. destruct (Z.eqb_spec m 0); [left; auto|right; auto].
    + split; [pose proof (app_unchanged h [x] [] [] [BF (if m =? 0 then FZero else FFinite) neg s e]) as U; rewrite !app_nil_r in U; exact U|]. split; [cbn; lia|]. cbn [flts]. rewrite nth_app_new. intros ? [= <-]. exact A.
Qed.

Lemma only_new_unchanged h h' : only_new h h' -> unchanged h h'.
Proof. intros (x & i & r & f & W & I & R & F). pose proof (app_unchanged h x i r f) as U. destruct h'. cbn in *. subst. exact U. Qed.
Lemma only_new_refl h : only_new h h.
Proof. exists [], [], [], []. rewrite !app_nil_r. auto. Qed.
Lemma new_only h : (forall z, only_new h (fst (new_int h z))) /\ (forall q, only_new h (fst (new_rat h q))) /\ (forall x, only_new h (fst (new_flt h x))).
Proof.
  split; [|split].
  - intros z. unfold new_int, new_words, only_new. cbn. do 4 eexists. split; [reflexivity|]. split; [reflexivity|]. rewrite <- (app_nil_r (rats h)) at 1. rewrite <- (app_nil_r (flts h)) at 1. auto.
  - intros q. unfold new_rat, new_words, only_new. cbn. do 4 eexists. rewrite <- app_assoc. split; [reflexivity|]. rewrite <- (app_nil_r (ints h)) at 1. rewrite <- (app_nil_r (flts h)) at 1. auto.
  - intros x. unfold new_flt, new_words, only_new. destruct x; cbn; do 4 eexists; (split; [first [reflexivity|symmetry; apply app_nil_r]|]); rewrite <- (app_nil_r (ints h)) at 1; rewrite <- (app_nil_r (rats h)) at 1; auto.
Qed.
Section Other.
  Context (oor : ikind -> float -> Z) (pl : list Z -> option literal) (ff : fsize -> float -> list Z) (fb : float -> list Z) (pr : list Z -> option Q).
  Lemma to_mem_other h s t i o : s <> t -> ~ (s = TBigRat /\ t = TBigInt) -> to_mem oor pl ff fb pr h s t i o = to_other oor pl ff fb pr h s t i o.
  Proof. intros N M. destruct s, t; try reflexivity; try (exfalso; apply N; reflexivity); exfalso; apply M; split; reflexivity. Qed.
  Lemma read_variable h t o : variable_of h t o -> exists w, read h o = Done w /\ out_typed t w /\ (forall x, o = HPlain x -> w = x).
  Proof.
    destruct t, o as [[p|]|[p|]|[p|]|v]; cbn; intros V; try contradiction; try (eexists; split; [reflexivity|]; split; [exact I || exact V|congruence]).
    - destruct (allocated_load h p V) as (b & E). rewrite E. eexists. split; [reflexivity|]. split; [exact I|discriminate].
    - unfold load_flt. destruct (nth_error (flts h) p) eqn:E; [|apply nth_error_None in E; lia]. eexists. split; [reflexivity|]. split; [exact I|discriminate].
    - unfold load_rat. destruct (nth_error (rats h) p) eqn:E; [|apply nth_error_None in E; lia]. eexists. split; [reflexivity|]. split; [exact I|discriminate].
  Qed.
  Lemma other_conversions h s t i o g : well_typed s g -> holds h i g -> variable_of h t o -> s <> t -> ~ (s = TBigRat /\ t = TBigInt) ->
    exists w e r v h', (forall x, o = HPlain x -> w = x) /\ to oor pl ff fb pr s t g w = Done (e, r) /\ to_mem oor pl ff fb pr h s t i o = Done (e, v, h') /\ only_new h h' /\
      (e = None -> well_typed t r -> holds h' v r /\ brand_new h h' v).
  Proof.
    intros W H V N M. rewrite to_mem_other by assumption. destruct (read_variable h t o V) as (w & R & O & P). destruct (to_total oor pl ff fb pr s t g w W O) as (e & r & T).
    exists w, e, r. unfold to_other. rewrite (read_holds h i g H), R. cbn [obind]. rewrite T. cbn [obind].
    destruct (new_only h) as (U1 & U2 & U3).
    destruct e as [e|].
    - assert (D : forall v, exists v0 h', (forall x, o = HPlain x -> w = x) /\ Done (Some e, r) = Done (Some e, r) /\ Done (Some e, v, h) = Done (Some e, v0, h') /\ only_new h h' /\ (Some e = None -> well_typed t r -> holds h' v0 r /\ brand_new h h' v0)).
      { intros v. exists v, h. split; [exact P|]. split; [reflexivity|]. split; [reflexivity|]. split; [apply only_new_refl|discriminate]. }
      destruct r; try (destruct o; apply D). destruct t; try apply D; destruct s; try apply D.
      specialize (U1 0). destruct (new_int h 0) as [h' p]. exists (HInt (Some p)), h'. split; [exact P|]. split; [reflexivity|]. split; [reflexivity|]. split; [exact U1|discriminate].
    - destruct r as [z|x|z|x|q|l|].
      3:{ destruct s;
          try (pose proof (new_int_ok h z) as X; specialize (U1 z); destruct (new_int h z) as [h' p]; exists (HInt (Some p)), h'; split; [exact P|split; [reflexivity|split; [reflexivity|split; [exact U1|intros _ _; split; [exact (proj1 X)|exact (proj2 (proj2 X))]]]]]).
          - pose proof (new_rat_ok h (inject_Z z) (Qred_int z)) as X. specialize (U2 (inject_Z z)). destruct (new_rat h (inject_Z z)) as [h' p]. exists (HInt (Some (PNum p))), h'. split; [exact P|split; [reflexivity|split; [reflexivity|split; [exact U2|]]]].
            intros _ _. destruct X as ((b & E & I) & _ & _ & B). split; [exists (rnum b); split; [rewrite E; reflexivity|exact (proj1 I)]|exact B].
          - pose proof (new_rat_ok h (inject_Z z) (Qred_int z)) as X. specialize (U2 (inject_Z z)). destruct (new_rat h (inject_Z z)) as [h' p]. exists (HInt (Some (PNum p))), h'. split; [exact P|split; [reflexivity|split; [reflexivity|split; [exact U2|]]]].
            intros _ _. destruct X as ((b & E & I) & _ & _ & B). split; [exists (rnum b); split; [rewrite E; reflexivity|exact (proj1 I)]|exact B]. }
      3:{ pose proof (new_flt_ok h x) as X. specialize (U3 x). destruct (new_flt h x) as [h' p]. exists (HFlt (Some p)), h'. split; [exact P|split; [reflexivity|split; [reflexivity|split; [exact U3|]]]].
          intros _ WT. destruct t; try contradiction. destruct WT as [W1 W2]. destruct (X W1 W2) as (X1 & _ & X3). split; [exact X1|exact X3]. }
      3:{ pose proof (new_rat_ok h q) as X. specialize (U2 q). destruct (new_rat h q) as [h' p]. exists (HRat (Some p)), h'. split; [exact P|split; [reflexivity|split; [reflexivity|split; [exact U2|]]]].
          intros _ WT. destruct t; try contradiction. destruct (X WT) as (X1 & _ & X3 & _). split; [exact X1|exact X3]. }
      all: match goal with |- exists v h', _ /\ Done (None, ?r) = _ /\ _ => 
          assert (D : forall v, (well_typed t r -> holds h v r /\ brand_new h h v) -> exists v0 h', (forall x, o = HPlain x -> w = x) /\ Done (@None err, r) = Done (@None err, r) /\ Done (@None err, v, h) = Done (None, v0, h') /\ only_new h h' /\ (@None err = None -> well_typed t r -> holds h' v0 r /\ brand_new h h' v0))
            by (intros v D; exists v, h; split; [exact P|split; [reflexivity|split; [reflexivity|split; [apply only_new_refl|intros _; exact D]]]]) end.
      all: destruct o; apply D; intros WT; destruct t; cbn in WT, V; try contradiction; split; cbn; auto.
  Qed.
End Other.

(** ** New numbers share nothing with old ones *)
Lemma arr_bound m s n : is_nat m s n -> match s with Some d => (arr d < length m)%nat | None => True end.
Proof. intros (V & _). destruct s; [exact (proj1 V)|exact I]. Qed.
Lemma set_int64_frame h p b v : load_int h p = Some b -> valid (words h) (iabs b) -> Z.abs v < base ->
  exists m s, set_int64 h p v = Done (store_int (mkHeap m (ints h) (rats h) (flts h)) p (BI (v <? 0) s)) /\ is_int m (BI (v <? 0) s) v /\
    frame (fun a i => match iabs b with Some d => a = arr d /\ i = off d | None => False end) (words h) m.
Proof.
  intros E V R. unfold set_int64. rewrite E. pose proof (set_word_ok (words h) (iabs b) (Z.abs v) V) as H. destruct (set_word (words h) (iabs b) (Z.abs v)) as [m s]. destruct H as [H F]; [lia|].
  exists m, s. split; [reflexivity|]. split; [split; [exact H|reflexivity]|exact F].
Qed.
Lemma disjoint_nat m m' s1 s2 n (P := fun a i => match s1 with Some d => a = arr d /\ i = off d | None => False end) :
  (forall d1 d2, s1 = Some d1 -> s2 = Some d2 -> arr d1 <> arr d2) -> frame P m m' -> is_nat m s2 n -> is_nat m' s2 n.
Proof.
  intros D F N. eapply is_nat_frame; [exact F| |exact N]. intros a i C X. destruct s2 as [d2|]; [|exact C]. unfold P in X. destruct s1 as [d1|]; [|exact X]. cbn in C. destruct C as [-> _], X as [X _]. eapply D; eauto.
Qed.
Lemma load_only_new h h' p b : only_new h h' -> load_int h p = Some b -> load_int h' p = Some b.
Proof.
  intros (x & i & r & f & W & I & R & F) E. destruct p; cbn in *; [rewrite I; apply nth_app_old; exact E|]. rewrite R. destruct (nth_error (rats h) n) eqn:N; [|discriminate]. rewrite (nth_app_old _ _ _ _ N). exact E.
Qed.
Lemma write_old h h' p z v out g : only_new h h' -> int_is h p z -> brand_new h h' out -> holds h' out g -> Z.abs v < base ->
  exists h2, set_int64 h' p v = Done h2 /\ int_is h2 p v /\ holds h2 out g.
Proof.
  intros ON (b & E & (NB & GB)) B H R. change (load_int h p = Some b) in E. pose proof (load_only_new h h' p b ON E) as E'.
  destruct ON as (x & i & r & f & W & II & RR & FF).
  assert (NB' : is_nat (words h') (iabs b) (Z.abs z)) by (rewrite W; apply is_nat_app; exact NB).
  destruct (set_int64_frame h' p b v E' (proj1 NB') R) as (m & s & SE & IS & F). exists (store_int (mkHeap m (ints h') (rats h') (flts h')) p (BI (v <? 0) s)). split; [exact SE|].
  set (h1 := mkHeap m (ints h') (rats h') (flts h')) in *.
  assert (A : allocated h1 p) by (apply load_int_allocated in E'; exact E'). assert (AO : allocated h p) by (apply load_int_allocated in E; exact E).
  pose proof (arr_bound _ _ _ NB) as AB.
  assert (DJ : forall s2 n, new_array (words h) s2 -> is_nat (words h') s2 n -> is_nat m s2 n).
  { intros s2 n NA N2. eapply disjoint_nat; [|exact F|exact N2]. intros d1 d2 D1 D2. rewrite D1 in AB. rewrite D2 in NA. cbn in NA. lia. }
  split; [exists (BI (v <? 0) s); split; [apply store_load; exact A|rewrite store_words; exact IS]|].
  destruct out as [[q|]|[q|]|[q|]|y], g; cbn in H, B |- *; try contradiction; try exact H.
  - destruct B as [NA BW]. destruct H as (c & C & (NC & GC)). change (load_int h' q = Some c) in C.
    assert (q <> p) by congruence. exists c. split; [change (load_int (store_int h1 p (BI (v <? 0) s)) q = Some c); rewrite store_other by auto; exact C|]. rewrite store_words. split; [|exact GC].
    apply DJ; [|exact NC]. apply BW. change (option_map iabs (load_int h' q) = Some (iabs c)). rewrite C. reflexivity.
  - destruct B as [NA BW]. destruct H as (c & C & I). exists c. rewrite store_flts, store_words. split; [exact C|]. specialize (BW c C). destruct x0; cbn in I |- *; [exact I|exact I|]. destruct I as [S [I|(I1 & I2 & I3 & I4)]]; split; auto. right. auto.
  - destruct B as [NA BW]. destruct H as (c & C & (NC & GC) & GD & Q & D). exists c. rewrite store_words. split; [rewrite store_rats; [exact C|exact A|intros ->; cbn in AO; lia]|]. destruct (BW c C) as [B1 B2].
    split; [split; [apply DJ; assumption|exact GC]|]. split; [exact GD|]. split; [exact Q|]. destruct D as [D|[D ?]]; [left|right]; auto.
Qed.
Lemma write_new h h' q v z p0 z0 : only_new h h' -> brand_new h h' (HInt (Some q)) -> int_is h' q z -> int_is h p0 z0 -> Z.abs v < base ->
  exists h2, set_int64 h' q v = Done h2 /\ int_is h2 q v /\ int_is h2 p0 z0.
Proof.
  intros ON [NA BW] (b & E & (NB & GB)) (c & C & (NC & GC)) R. change (load_int h' q = Some b) in E. change (load_int h p0 = Some c) in C.
  pose proof (load_only_new h h' p0 c ON C) as C'. destruct ON as (x & i & r & f & W & II & RR & FF).
  destruct (set_int64_frame h' q b v E (proj1 NB) R) as (m & s & SE & IS & F). exists (store_int (mkHeap m (ints h') (rats h') (flts h')) q (BI (v <? 0) s)). split; [exact SE|].
  set (h1 := mkHeap m (ints h') (rats h') (flts h')) in *.
  assert (A : allocated h1 q) by (apply load_int_allocated in E; exact E). assert (AO : allocated h p0) by (apply load_int_allocated in C; exact C).
  split; [exists (BI (v <? 0) s); split; [apply store_load; exact A|rewrite store_words; exact IS]|].
  exists c. split; [change (load_int (store_int h1 q (BI (v <? 0) s)) p0 = Some c); rewrite store_other by (auto; congruence); exact C'|]. rewrite store_words. split; [|exact GC].
  eapply disjoint_nat; [|exact F|rewrite W; apply is_nat_app; exact NC]. intros d1 d2 D1 D2 X. pose proof (arr_bound _ _ _ NC) as AB. rewrite D2 in AB.
  assert (new_array (words h) (iabs b)) as Y by (apply BW; change (option_map iabs (load_int h' q) = Some (iabs b)); rewrite E; reflexivity). rewrite D1 in Y. cbn in Y. lia.
Qed.

(** ** To as a whole *)
Section Whole.
  Context (oor : ikind -> float -> Z) (pl : list Z -> option literal) (ff : fsize -> float -> list Z) (fb : float -> list Z) (pr : list Z -> option Q).
  Lemma whole_same h t i o g : (t = TBigInt \/ t = TBigRat \/ t = TBigFloat) -> well_typed t g -> holds h i g -> variable_of h t o ->
    exists v h', to_mem oor pl ff fb pr h t t i o = Done (None, v, h') /\ v <> i /\ holds h' v g /\ holds h' i g.
  Proof.
    intros B W H V. destruct B as [-> | [-> | ->]]; destruct g; cbn in W; try contradiction; destruct i as [[p|]|[p|]|[p|]|y]; cbn in H; try contradiction; try (destruct H as [_ []]);
      destruct o as [a|a|a|y]; cbn in V; try contradiction; cbn [to_mem].
    - assert (O : forall q, a = Some q -> allocated h q) by (intros q ->; exact V). destruct (same_int h p z a H O) as (q & h' & E & D & Q & (U & _) & _). rewrite E. cbn [obind]. exists (HInt (Some q)), h'.
      split; [reflexivity|]. split; [congruence|]. split; [exact Q|]. apply U; [congruence|exact H].
    - assert (O : forall q, a = Some q -> (q < length (rats h))%nat) by (intros q' ->; exact V). destruct (same_rat h p q a H O) as (q' & h' & E & D & Q' & (_ & U & _) & _). rewrite E. cbn [obind]. exists (HRat (Some q')), h'.
      split; [reflexivity|]. split; [congruence|]. split; [exact Q'|]. apply U; [congruence|exact H].
    - assert (O : forall q, a = Some q -> (q < length (flts h))%nat) by (intros q ->; exact V). destruct (same_flt h p x a H O) as (q & h' & E & D & Q & (_ & _ & U) & _). rewrite E. cbn [obind]. exists (HFlt (Some q)), h'.
      split; [reflexivity|]. split; [congruence|]. split; [exact Q|]. apply U; [congruence|exact H].
  Qed.
  Lemma whole_nil h t o : (t = TBigInt /\ (exists a, o = HInt a) \/ t = TBigRat /\ (exists a, o = HRat a) \/ t = TBigFloat /\ (exists a, o = HFlt a)) ->
    forall i, i = HInt None \/ i = HRat None \/ i = HFlt None -> variable_of h t i -> to_mem oor pl ff fb pr h t t i o = Done (None, i, h).
  Proof. intros [[-> [a ->]]|[[-> [a ->]]|[-> [a ->]]]] i [-> | [-> | ->]] V; cbn in V; try contradiction; reflexivity. Qed.
  Lemma whole_errors h s t i o g e v h' : (t = TBigInt \/ t = TBigRat \/ t = TBigFloat) -> well_typed s g -> holds h i g -> variable_of h t o -> to_mem oor pl ff fb pr h s t i o = Done (Some e, v, h') ->
    (s <> TString -> v = o /\ h' = h) /\
    (s = TString -> match t with TBigInt => exists p, v = HInt (Some p) /\ ~ allocated h p | TBigRat => v = HRat None | _ => v = HFlt None end).
  Proof.
    intros B W H V.
    assert (G : to_other oor pl ff fb pr h s t i o = Done (Some e, v, h') -> s <> t ->
      (s <> TString -> v = o /\ h' = h) /\
      (s = TString -> match t with TBigInt => exists p, v = HInt (Some p) /\ ~ allocated h p | TBigRat => v = HRat None | _ => v = HFlt None end)).
    { unfold to_other. intros E N. destruct (read h i) as [g'| |]; [|discriminate|discriminate]. destruct (read h o) as [w| |]; [|discriminate|discriminate]. cbn [obind] in E.
      destruct (to oor pl ff fb pr s t g' w) as [[e' r]| |] eqn:T; [|discriminate|discriminate]. cbn [obind] in E.
      assert (Z0 : e' = None -> False).
      { intros ->. destruct r, s; try (destruct (new_int h z)); try (destruct (new_rat h (inject_Z z))); try (destruct (new_flt h x)); try (destruct (new_rat h q)); destruct o; discriminate. }
      destruct e' as [e'|]; [|destruct (Z0 eq_refl)]. clear Z0.
      split.
      - intros NS. assert (K : Done (Some e', o, h) = Done (Some e, v, h')).
        { destruct r; try (destruct o; [exact E|exact E|exact E|]; destruct B as [-> | [-> | ->]]; destruct V). destruct t; try exact E; destruct s; try exact E; congruence. }
        injection K as _ <- <-. auto.
      - intros ->. assert (R : r = VUnspec).
        { destruct B as [-> | [-> | ->]]; cbn in T; destruct g'; try discriminate.
          - assert (S0 : forall l, fst (string_to_bigint l) = Some e' -> snd (string_to_bigint l) = None).
            { intros l. unfold string_to_bigint. destruct l as [|c l]; [reflexivity|]. destruct (if c =? 43 then (false, l) else if c =? 45 then (true, l) else (false, c :: l)) as [neg body].
              destruct body; [reflexivity|]. destruct (forallb Decimal.is_digit (z :: body)); [discriminate|reflexivity]. }
            specialize (S0 s). destruct (string_to_bigint s) as [x [y|]]; [|congruence]. cbn in S0. injection T as -> <-. specialize (S0 eq_refl). discriminate.
          - destruct (pr s); congruence.
          - unfold string_to_bigfloat in T. destruct (pl s); congruence. }
        subst r. destruct B as [-> | [-> | ->]]; cbn in E; try congruence.
        injection E as _ <- _. eexists. split; [reflexivity|]. cbn. lia. }
    intros E. assert (N : s <> t).
    { intros ->. destruct (whole_same h t i o g B W H V) as (v0 & h0 & E0 & _). congruence. }
    assert (M : s = TBigRat /\ t = TBigInt \/ ~ (s = TBigRat /\ t = TBigInt)).
    { destruct s, t; try (right; intros [? ?]; discriminate). left. auto. }
    destruct M as [[-> ->]|M]; [|rewrite (to_mem_other oor pl ff fb pr h s t i o N M) in E; apply G; assumption].
    split; [intros _|discriminate]. destruct g; cbn in W; try contradiction. destruct i as [[p|]|[p|]|[p|]|y]; cbn in H; try contradiction; try (destruct H as [_ []]).
    destruct o as [a|a|a|y']; cbn [variable_of] in V; try contradiction. cbn [to_mem] in E.
    unfold rat_to_int in E. destruct (load_rat h p); [|discriminate]. destruct (negb _); cbn in E; [|discriminate]. injection E as _ <- <-. auto.
  Qed.
End Whole.
