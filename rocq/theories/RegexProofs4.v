(** Proofs about Regex.v: routes match their paths, with unique values. *)
From Verif Require Import Base Rest ReaderSpec JsonSpec Regex RegexSpec RegexProofs RegexProofs2 RegexProofs3.
From Coq Require Import String List.
Import ListNotations.
Open Scope Z_scope.

Lemma seg_next t rest vals : fits t rest vals -> match t with [] => True | Lit (47 :: _) :: _ => True | _ => False end -> 
  rest = [] \/ exists r, rest = 47 :: r.
Proof.
  intros F H. destruct F as [|s t rest vals F| | |]; auto; try contradiction. destruct s as [|z s]; [contradiction|]. right.
  assert (z = 47). { destruct z as [|p|p]; try contradiction. do 6 (destruct p as [p|p|]; try contradiction). reflexivity. }
  subst z. eexists. reflexivity.
Qed.
Lemma route_seg t : route_ok (Segment :: t) -> route_ok t /\ match t with [] => True | Lit (47 :: _) :: _ => True | _ => False end.
Proof.
  cbn [route_ok]. destruct t as [|[[|z s]| | |] t]; try contradiction; auto.
  destruct z as [|p|p]; try contradiction. do 6 (destruct p as [p|p|]; try contradiction). auto.
Qed.

Lemma fits_unique t : route_ok t -> forall path v, fits t path v -> forall v', fits t path v' -> v = v'.
Proof.
  intros OK path v F. induction F as [|s t rest vals F IH|u t rest vals U F IH|s t rest vals NE NS F IH|s t rest vals NL F IH]; intros v' F'.
  - inversion F'; reflexivity.
  - inversion F' as [|? ? ? ? F2 E1 E2| | |]; subst. apply app_inv_head in E2. subst. apply IH; auto. destruct OK; auto.
  - inversion F' as [| |u' ? rest' ? U' F2 E1 E2| |]; subst. 
    assert (L : len u' = len u) by (rewrite !uuid_len; auto).
    assert (E3 : u' = u /\ rest' = rest).
    { clear - E2 L. revert u' E2 L. induction u as [|a u IH]; intros [|b u'] E L; cbn in *; try lia; auto. inversion E; subst.
      destruct (IH u' H1 ltac:(lia)). subst. auto. }
    destruct E3; subst. f_equal. apply IH; auto.
  - inversion F' as [| | |s' ? rest' ? NE' NS' F2 E1 E2|]; subst. destruct (route_seg t OK) as [OK' NX].
    assert (E3 : s' = s /\ rest' = rest).
    { pose proof (seg_next _ _ _ F NX) as A. pose proof (seg_next _ _ _ F2 NX) as B. clear - E2 NS NS' A B.
      revert s' E2 NS'. induction s as [|a s IH]; intros [|b s'] E NS'; cbn in E; auto.
      - exfalso. subst. destruct A as [A|[r A]]; [discriminate|]. injection A as A1 A2. apply NS'. left. exact A1.
      - exfalso. subst. destruct B as [B|[r B]]; [discriminate|]. injection B as B1 B2. apply NS. left. exact B1.
      - injection E as E1 E2. subst. destruct (IH (fun i => NS (or_intror i)) s' E2 (fun i => NS' (or_intror i))). subst. auto. }
    destruct E3; subst. f_equal. apply IH; auto.
  - cbn [route_ok] in OK. destruct t; [|contradiction]. inversion F; subst. inversion F' as [| | | |s' ? rest' ? NL' F2 E1 E2]; subst. inversion F2; subst.
    rewrite !app_nil_r in E2. congruence.
Qed.

Lemma seg_cut t rest vals : fits t rest vals -> match t with [] => True | Lit (47 :: _) :: _ => True | _ => False end -> cut_before rest.
Proof. intros F H. destruct (seg_next _ _ _ F H) as [->|[r ->]]; [exact Logic.I|reflexivity]. Qed.

Lemma fits_means t path v : route_ok t -> fits t path v -> forall cs g pre c, cs = pre ++ cells_of path -> 
  exists d, means cs (cat (pieces_re t g ++ [REol])) (len pre) c (len cs) d.
Proof.
  intros OK F. induction F as [|s t rest vals F IH|u t rest vals U F IH|s t rest vals NE NS F IH|s t rest vals NL F IH]; intros cs g pre c C.
  - cbn in C. rewrite app_nil_r in C. subst. exists c. cbn. econstructor; constructor.
  - destruct OK as [PL OK]. rewrite cells_utf8 in C by (eapply Forall_impl; [|exact PL]; intros a (A & _); exact A). rewrite app_assoc in C.
    destruct (IH OK cs g _ c C) as [d M]. exists d. cbn [pieces_re piece_re piece_groups]. rewrite <- app_assoc, Nat.add_0_r.
    eapply means_cat_join; [|exact M]. eapply classes_means; [apply lit_classes| |apply cells_lit]. rewrite C, <- app_assoc. reflexivity.
  - cbn [route_ok] in OK. destruct (ascii_scalars u (uuid_ascii_text u U)) as [SC UU]. rewrite <- UU in C. rewrite cells_utf8 in C by exact SC. rewrite app_assoc in C.
    set (q := len (pre ++ List.map (fun c => (c, encode c)) u)).
    destruct (IH OK cs (g + 1)%nat _ ((S g, (len pre, q)) :: c) C) as [d M]. exists d. cbn [pieces_re piece_re piece_groups]. rewrite <- app_assoc.
    eapply means_cat_join; [|exact M]. cbn. econstructor; [|constructor]. constructor.
    eapply classes_means; [apply classes_uuid| |apply classes_of_uuid; [exact U|apply classes_uuid]]. rewrite C, <- app_assoc. reflexivity.
  - destruct (route_seg t OK) as [OK' NX]. rewrite (cells_app s rest (seg_cut _ _ _ F NX)) in C. rewrite app_assoc in C.
    set (q := len (pre ++ cells_of s)).
    destruct (IH OK' cs (g + 1)%nat _ ((S g, (len pre, q)) :: c) C) as [d M]. exists d. cbn [pieces_re piece_re piece_groups]. rewrite <- app_assoc.
    eapply means_cat_join; [|exact M]. cbn. econstructor; [|constructor]. constructor. econstructor; [|constructor].
    pose proof (cells_seg s NS) as FS. unfold q. clear q M.
    destruct (cells_of s) as [|x xs] eqn:CS. { exfalso. apply NE. rewrite <- (cells_bytes s), CS. reflexivity. }
    inversion FS as [|? ? X FX]; subst x0 l. econstructor.
    + eapply (classes_means cs noslash _ eq_refl pre [x] (xs ++ cells_of rest)); [rewrite C, <- app_assoc; reflexivity|]. repeat constructor. exact X.
    + replace (pre ++ x :: xs) with ((pre ++ [x]) ++ xs) by (rewrite <- app_assoc; reflexivity).
      apply (star_class_means cs true [(47, 47)] xs FX _ (cells_of rest)). rewrite C, <- !app_assoc. reflexivity.
  - cbn [route_ok] in OK. destruct t; [|contradiction]. inversion F; subst rest vals. rewrite app_nil_r in C. set (q := len (pre ++ cells_of s)).
    exists ((S g, (len pre, q)) :: c). cbn [pieces_re piece_re piece_groups app cat fold_right]. econstructor; [|econstructor; [|constructor]].
    + constructor. econstructor; [|constructor]. apply (star_class_means cs true [(10, 10)] _ (cells_tail s NL) pre []). rewrite app_nil_r. exact C.
    + unfold q. rewrite <- C. constructor.
Qed.

Lemma starok_piece x g : Forall starok (piece_re x g).
Proof.
  destruct x; cbn [piece_re].
  - induction s; cbn; constructor; auto. exact Logic.I.
  - constructor; [|constructor]. cbn. tauto.
  - constructor; [|constructor]. cbn. tauto.
  - constructor; [|constructor]. cbn. tauto.
Qed.
Lemma starok_route t : starok (route_re t).
Proof.
  apply starok_cat. constructor; [exact Logic.I|]. apply Forall_app. split; [|repeat constructor].
  generalize 0%nat. induction t as [|x t IH]; intros g; cbn; [constructor|]. apply Forall_app. split; [apply starok_piece|apply IH].
Qed.

Lemma group_lookup cs (c : list (nat * (nat * nat))) n sp : In (n, sp) c -> NoDup (List.map fst c) -> group_text cs c n = bytes_between cs (fst sp) (snd sp).
Proof.
  intros I ND. unfold group_text. induction c as [|[k s] c IH]; [destruct I|]. cbn [find fst]. inversion ND as [|? ? NI ND']; subst.
  destruct (Nat.eqb_spec k n) as [->|NE].
  - destruct I as [E|I]; [inversion E; subst; destruct sp; reflexivity|]. exfalso. apply NI. cbn [fst]. apply in_map_iff. exists (n, sp). auto.
  - destruct I as [E|I]; [inversion E; congruence|]. apply IH; auto.
Qed.
Lemma fst_combine {A B} (l : list A) : forall (m : list B), len l = len m -> List.map fst (combine l m) = l.
Proof. induction l as [|a l IH]; intros [|b m] E; cbn in *; try lia; auto. rewrite IH; auto. Qed.
Lemma group_texts cs k spans a : len spans = k ->
  List.map (group_text cs (rev (combine (seq a k) spans))) (seq a k) = List.map (fun '(p, q) => bytes_between cs p q) spans.
Proof.
  intros L. set (c := rev (combine (seq a k) spans)).
  assert (ND : NoDup (List.map fst c)).
  { unfold c. rewrite map_rev. apply NoDup_rev. rewrite fst_combine by (rewrite seq_length; auto). apply seq_NoDup. }
  assert (H : forall l m, len l = len m -> (forall n sp, In (n, sp) (combine l m) -> In (n, sp) c) ->
    List.map (group_text cs c) l = List.map (fun '(p, q) => bytes_between cs p q) m).
  { induction l as [|n l IH]; intros [|[p q] m] E I; cbn in E; try lia; [reflexivity|]. cbn. f_equal.
    - rewrite (group_lookup cs c n (p, q)); auto. apply I. left; reflexivity.
    - apply IH; [lia|]. intros n' sp J. apply I. right; exact J. }
  apply H; [rewrite seq_length; auto|]. intros n sp I. unfold c. rewrite <- in_rev. exact I.
Qed.

Lemma between_all s : bytes_between (cells_of s) 0 (len (cells_of s)) = s.
Proof. unfold bytes_between. cbn [skipn]. rewrite Nat.sub_0_r, firstn_all. apply cells_bytes. Qed.

Lemma route_find t path parts : route_ok t ->
  find_submatch (groups t, route_re t) path = Some parts <-> exists vals, fits t path vals /\ parts = path :: vals.
Proof.
  intros OK. pose proof (route_lits t OK) as LO. unfold find_submatch. cbn [fst snd]. set (cs := cells_of path).
  pose proof (search_spec cs (route_re t) (starok_route t) (S (len cs)) 0 eq_refl) as H.
  assert (FW : forall p q c, means cs (route_re t) p [] q c -> p = 0%nat /\ q = len cs /\ exists vals, fits t path vals /\
     List.map (group_text cs c) (seq 1 (groups t)) = vals).
  { intros p q c M. unfold route_re in M. cbn [cat fold_right] in M. inversion M as [| | | |? ? ? ? m e ? ? M1 M2| | | | |]; subst.
    inversion M1; subst. split; [reflexivity|].
    apply means_cat_app in M2 as (m & e & M2 & M3). cbn in M3. inversion M3 as [| | | |? ? ? ? m1 e1 ? ? M4 M5| | | | |]; subst. inversion M5; subst. 
    assert (Q : m = len cs /\ q = len cs /\ c = e) by (inversion M4; auto). destruct Q as (-> & -> & ->). split; [reflexivity|].
    destruct (pieces_means cs t LO 0 [] cs [] (len cs) e eq_refl (cells_good path) M2) as (xs & rest' & spans & vals & R & Q & F & D & L & W).
    assert (rest' = []). { cbn [app] in Q. rewrite R, app_length in Q. destruct rest'; [reflexivity|cbn in Q; lia]. } subst rest'. rewrite app_nil_r in R.
    exists vals. rewrite <- R in F. unfold cs in F. rewrite cells_bytes in F. split; [exact F|]. rewrite app_nil_r in D. rewrite D, <- W. apply group_texts. exact L. }
  destruct (search cs (route_re t) (S (len cs)) 0) as [[[p q] c]|].
  - destruct H as (_ & _ & M & _). destruct (FW p q c M) as (-> & -> & vals & F & V). unfold cs at 1 2. rewrite between_all, V. split.
    + intros E. exists vals. split; [exact F|congruence].
    + intros (vals' & F' & ->). rewrite (fits_unique t OK path vals' F' vals F). reflexivity.
  - split; [discriminate|]. intros (vals & F & _). exfalso. 
    destruct (fits_means t path vals OK F cs 0%nat [] [] eq_refl) as [d M].
    apply (H 0%nat (len cs) d); [lia|]. unfold route_re. cbn [cat fold_right]. econstructor; [constructor|exact M].
Qed.

(** ** Patterns without anchors *)
Lemma compile_pieces t : Forall lits_ok t -> compile (pieces_text t) = Compiled (groups t) (cat (pieces_re t 0)).
Proof.
  intros H. destruct (pieces_scalars t H) as [S1 S2]. rewrite <- S2, compile_utf8 by exact S1. unfold pstart.
  destruct (run_pieces t H 0%nat [] [] Nothing false [] 0%nat) as (l & b & ->). cbn [pfinish Nat.add]. unfold frame_re. cbn [falts fitems rev app fold_left].
  unfold items_re, cat. rewrite app_nil_r, rev_involutive. reflexivity.
Qed.
Lemma fits_scalars t mid v : Forall lits_ok t -> Forall no_segment t -> fits t mid v -> exists m, Forall scalar m /\ mid = utf8 m.
Proof.
  intros LO NO F. induction F as [|s t rest vals F IH|u t rest vals U F IH|s t rest vals NE NS F IH|s t rest vals NL F IH];
    [exists []; split; [constructor|reflexivity]|inversion LO as [|? ? L1 L2]; subst; inversion NO as [|? ? N1 N2]; subst; destruct (IH L2 N2) as (m & M & ->)..].
  - exists (s ++ m). split; [apply Forall_app; split; [exact (proj1 (piece_scalars (Lit s) L1))|exact M]|]. unfold utf8. rewrite flat_map_app. reflexivity.
  - destruct (ascii_scalars u (uuid_ascii_text u U)) as [SC UU]. exists (u ++ m). split; [apply Forall_app; auto|]. unfold utf8 in *. rewrite flat_map_app, UU. reflexivity.
  - exfalso. apply (proj1 N1). reflexivity.
  - exfalso. apply (proj2 N1). reflexivity.
Qed.
Lemma fits_means0 t mid v : Forall lits_ok t -> Forall no_segment t -> fits t mid v -> forall cs g pre post c, cs = pre ++ cells_of mid ++ post ->
  exists d, means cs (cat (pieces_re t g)) (len pre) c (len (pre ++ cells_of mid)) d.
Proof.
  intros LO NO F. induction F as [|s t rest vals F IH|u t rest vals U F IH|s t rest vals NE NS F IH|s t rest vals NL F IH]; intros cs g pre post c C.
  - exists c. cbn [cells_of]. rewrite app_nil_r. constructor.
  - inversion LO as [|? ? L1 L2]; inversion NO as [|? ? N1 N2]; subst x l x0 l0. rewrite cells_utf8 in C |- * by exact (proj1 (piece_scalars (Lit s) L1)).
    rewrite <- app_assoc, app_assoc in C. destruct (IH L2 N2 cs g _ post c C) as [d M]. exists d. cbn [pieces_re piece_re piece_groups]. rewrite Nat.add_0_r.
    rewrite app_assoc. eapply means_cat_join; [|exact M]. eapply classes_means; [apply lit_classes| |apply cells_lit]. rewrite C, <- !app_assoc. reflexivity.
  - inversion LO as [|? ? L1 L2]; inversion NO as [|? ? N1 N2]; subst x l x0 l0. destruct (ascii_scalars u (uuid_ascii_text u U)) as [SC UU].
    rewrite <- UU in C |- *. rewrite cells_utf8 in C |- * by exact SC. rewrite <- app_assoc, app_assoc in C.
    set (q := len (pre ++ List.map (fun c => (c, encode c)) u)).
    destruct (IH L2 N2 cs (g + 1)%nat _ post ((S g, (len pre, q)) :: c) C) as [d M]. exists d. cbn [pieces_re piece_re piece_groups].
    rewrite app_assoc. eapply means_cat_join; [|exact M]. cbn. econstructor; [|constructor]. constructor.
    eapply classes_means; [apply classes_uuid| |apply classes_of_uuid; [exact U|apply classes_uuid]]. rewrite C, <- !app_assoc. reflexivity.
  - exfalso. inversion NO as [|? ? N1 N2]. apply (proj1 N1). reflexivity.
  - exfalso. inversion NO as [|? ? N1 N2]. apply (proj2 N1). reflexivity.
Qed.
From Coq Require Import ZifyBool.
Lemma cut_utf8 m x : Forall scalar m -> m <> [] -> cut_before (utf8 m ++ x).
Proof.
  intros H N. destruct H as [|c m [H _] _]; [congruence|]. unfold utf8. cbn [flat_map]. unfold encode.
  destruct (c <? 128) eqn:A; [cbn [app cut_before]; unfold trail; lia|]. destruct (c <? 2048) eqn:B.
  { cbn [app cut_before]; unfold trail. pose proof (Z.div_le_lower_bound c 64 2). lia. }
  destruct (c <? 65536) eqn:D; cbn [app cut_before]; unfold trail; [pose proof (Z.div_pos c 4096)|pose proof (Z.div_pos c 262144)]; lia.
Qed.
Lemma starok_pieces t g : starok (cat (pieces_re t g)).
Proof.
  apply starok_cat. revert g. induction t as [|x t IH]; intros g; cbn; [constructor|]. apply Forall_app. split; [apply starok_piece|apply IH].
Qed.
Lemma firstn_bytes (cs : list cell) p q : (p <= q)%nat -> (len (flat_map snd (firstn p cs)) <= len (flat_map snd (firstn q cs)))%nat.
Proof.
  intros L. replace q with (p + (q - p))%nat by lia. rewrite <- (firstn_skipn p (firstn (p + (q - p)) cs)), firstn_firstn.
  replace (Init.Nat.min p (p + (q - p)))%nat with p by lia. rewrite flat_map_app, app_length. lia.
Qed.
Lemma pieces_find t path : Forall lits_ok t -> Forall no_segment t -> pieces_text t <> [] ->
  match find_submatch (groups t, cat (pieces_re t 0)) path with
  | Some parts => exists a mid b vals, path = a ++ mid ++ b /\ fits t mid vals /\ parts = mid :: vals /\
      (forall a' mid' b' v', path = a' ++ mid' ++ b' -> fits t mid' v' -> (len a <= len a')%nat)
  | None => forall a mid b v, path = a ++ mid ++ b -> ~ fits t mid v
  end.
Proof.
  intros LO NO NE. unfold find_submatch. cbn [fst snd]. set (cs := cells_of path).
  pose proof (search_spec cs (cat (pieces_re t 0)) (starok_pieces t 0) (S (len cs)) 0 eq_refl) as H.
  assert (BW : forall a mid b v, path = a ++ mid ++ b -> fits t mid v -> cs = cells_of a ++ cells_of (mid ++ b) /\
    exists q d, means cs (cat (pieces_re t 0)) (len (cells_of a)) [] q d).
  { intros a mid b v E F. destruct (fits_scalars t mid v LO NO F) as (m & SM & EM).
    assert (NM : m <> []).
    { intros ->. cbn in EM. subst mid. apply NE. clear - F LO NO. remember [] as mid eqn:Q. 
      induction F as [|s t rest vals F IH|u t rest vals U F IH|s t rest vals NE NS F IH|s t rest vals NL F IH]; [reflexivity|..].
      - apply app_eq_nil in Q as [Q1 Q2]. inversion LO; inversion NO; subst. unfold pieces_text in *. cbn [flat_map piece_text]. rewrite Q1, IH; auto.
      - apply app_eq_nil in Q as [Q1 Q2]. apply uuid_len in U. subst u. discriminate.
      - apply app_eq_nil in Q as [Q1 Q2]. congruence.
      - exfalso. inversion NO as [|? ? N1 N2]. apply (proj2 N1). reflexivity. }
    assert (CA : cs = cells_of a ++ cells_of (mid ++ b)). { unfold cs. rewrite E. apply cells_app. rewrite EM. apply cut_utf8; auto. }
    split; [exact CA|]. assert (CM : cells_of (mid ++ b) = cells_of mid ++ cells_of b).
    { rewrite EM. rewrite cells_utf8 by exact SM. rewrite <- (app_nil_r (utf8 m)) at 1. rewrite cells_utf8 by exact SM. cbn [cells_of]. rewrite app_nil_r. reflexivity. }
    rewrite CM in CA. destruct (fits_means0 t mid v LO NO F cs 0%nat (cells_of a) (cells_of b) [] CA) as [d M]. eauto. }
  destruct (search cs (cat (pieces_re t 0)) (S (len cs)) 0) as [[[p q] c]|].
  - destruct H as (_ & LP & M & NB).
    assert (SP : cs = firstn p cs ++ skipn p cs) by (symmetry; apply firstn_skipn).
    assert (LPRE : len (firstn p cs) = p) by (rewrite firstn_length; lia).
    pose proof (cells_good path) as G. fold cs in G. rewrite SP in G. apply Forall_app in G as [_ G].
    rewrite <- LPRE in M. destruct (pieces_means cs t LO 0 (firstn p cs) (skipn p cs) [] q c SP G M) as (xs & rest' & spans & vals & R & Q & F & D & L & W).
    exists (flat_map snd (firstn p cs)), (flat_map snd xs), (flat_map snd rest'), vals. split.
    { rewrite <- !flat_map_app, <- R, <- SP. unfold cs. symmetry. apply cells_bytes. }
    split; [exact F|]. split.
    { f_equal.
      - rewrite <- LPRE at 1. rewrite Q. apply (between_mid cs _ xs rest'). rewrite <- R. exact SP.
      - rewrite app_nil_r in D. rewrite D, <- W. apply group_texts. exact L. }
    intros a' mid' b' v' E F'. destruct (BW a' mid' b' v' E F') as (CA & q' & d' & M').
    assert (LE : (p <= len (cells_of a'))%nat).
    { destruct (le_lt_dec p (len (cells_of a'))); [assumption|]. exfalso. eapply NB; [|exact M']. lia. }
    eapply Nat.le_trans; [apply (firstn_bytes cs p _ LE)|]. rewrite CA, firstn_app, firstn_all, Nat.sub_diag. cbn [firstn]. rewrite app_nil_r, cells_bytes. lia.
  - intros a mid b v E F. destruct (BW a mid b v E F) as (CA & q & d & M). eapply H; [|exact M]. rewrite CA, app_length. lia.
Qed.
