(** Proofs about Regex.v: routes. *)
From Verif Require Import Base Rest ReaderSpec JsonSpec Regex RegexSpec RegexProofs RegexProofs2.
From Coq Require Import String List.
Import ListNotations.
Open Scope Z_scope.

(** ** Compiling a route *)
Definition hexclass : re := RClass false [(97, 102); (65, 70); (48, 57)].
Definition uuid_re : re := fold_right RCat REmpty
  [rpow hexclass 8 REmpty; rchar 45; rpow hexclass 4 REmpty; rchar 45; rpow hexclass 4 REmpty; rchar 45; rpow hexclass 4 REmpty; rchar 45; rpow hexclass 12 REmpty].
Definition noslash : re := RClass true [(47, 47)].
Definition seg_re : re := fold_right RCat REmpty [RCat noslash (RStar true noslash)].
Definition nolf : re := RClass true [(10, 10)].
Definition tail_re : re := fold_right RCat REmpty [RStar true nolf].
Definition piece_re (x : piece) (g : nat) : list re :=
  match x with Lit s => List.map rchar s | Uuid => [RGroup (S g) uuid_re] | Segment => [RGroup (S g) seg_re] | Tail => [RGroup (S g) tail_re] end.
Definition piece_groups (x : piece) : nat := match x with Lit _ => 0 | _ => 1 end.
Fixpoint pieces_re (t : list piece) (g : nat) : list re :=
  match t with [] => [] | x :: t => piece_re x g ++ pieces_re t (g + piece_groups x) end.
Fixpoint groups (t : list piece) : nat := match t with [] => 0 | x :: t => piece_groups x + groups t end.
Definition cat (l : list re) : re := fold_right RCat REmpty l.
Definition piece_runes (x : piece) : list Z := match x with Lit s => s | Uuid => UUIDGroup | Segment => text "([^/]+)" | Tail => text "(.*)" end.
Definition lits_ok (x : piece) : Prop := match x with Lit s => Forall plain_rune s | _ => True end.

Lemma route_lits t : route_ok t -> Forall lits_ok t.
Proof.
  induction t as [|x t IH]; intros H; [constructor|]. destruct x; cbn in H.
  - destruct H. constructor; auto.
  - constructor; auto. exact Logic.I.
  - constructor; [exact Logic.I|]. destruct t as [|[[|z s]| | |] t]; try contradiction; [constructor|].
    apply IH. destruct z as [|p|p]; try contradiction. do 6 (destruct p; try contradiction). exact H.
  - destruct t; [repeat constructor|contradiction].
Qed.
Lemma plain_special c : plain_rune c -> ~ In c specials.
Proof.
  intros (_ & _ & N) I. apply N. vm_compute. vm_compute in I. tauto.
Qed.
Lemma run_lit s : Forall plain_rune s -> forall fg fa items fl fc below g, exists l b,
  fold_left step s (PState MPlain (Frame fg fa items fl fc) below g) = PState MPlain (Frame fg fa (rev (List.map rchar s) ++ items) l b) below g.
Proof.
  induction 1 as [|c s H _ IH]; intros; [cbn; eauto|]. cbn [fold_left step]. rewrite plain_default by (apply plain_special, H).
  unfold push. cbn [fgroup falts fitems fcounted].
  destruct (IH fg fa (rchar c :: items) Operand fc below g) as (l & b & E). exists l, b. rewrite E. cbn. rewrite <- app_assoc. reflexivity.
Qed.
Lemma run_piece x : lits_ok x -> forall fg fa items fl fc below g, exists l b,
  fold_left step (piece_runes x) (PState MPlain (Frame fg fa items fl fc) below g) =
  PState MPlain (Frame fg fa (rev (piece_re x g) ++ items) l b) below (g + piece_groups x).
Proof.
  destruct x as [s| | |]; intros H fg fa items fl fc below g.
  - destruct (run_lit s H fg fa items fl fc below g) as (l & b & E). exists l, b. cbn [piece_groups]. rewrite Nat.add_0_r. exact E.
  - do 2 eexists. cbn [piece_groups]. rewrite Nat.add_1_r. vm_compute. reflexivity.
  - do 2 eexists. cbn [piece_groups]. rewrite Nat.add_1_r. vm_compute. reflexivity.
  - do 2 eexists. cbn [piece_groups]. rewrite Nat.add_1_r. vm_compute. reflexivity.
Qed.
Lemma run_pieces t : Forall lits_ok t -> forall fg fa items fl fc below g, exists l b,
  fold_left step (flat_map piece_runes t) (PState MPlain (Frame fg fa items fl fc) below g) =
  PState MPlain (Frame fg fa (rev (pieces_re t g) ++ items) l b) below (g + groups t).
Proof.
  induction 1 as [|x t H _ IH]; intros; [cbn; rewrite Nat.add_0_r; eauto|]. cbn [flat_map]. rewrite fold_left_app.
  destruct (run_piece x H fg fa items fl fc below g) as (l & b & ->).
  destruct (IH fg fa (rev (piece_re x g) ++ items) l b below (g + piece_groups x)%nat) as (l' & b' & ->).
  exists l', b'. cbn [pieces_re groups]. rewrite rev_app_distr, app_assoc, Nat.add_assoc. reflexivity.
Qed.

Lemma cells_utf8 s x : Forall scalar s -> cells_of (utf8 s ++ x) = List.map (fun c => (c, encode c)) s ++ cells_of x.
Proof.
  unfold utf8. induction 1 as [|c s H _ IH]; [reflexivity|]. cbn [flat_map List.map app]. rewrite <- app_assoc, cells_encode, IH by exact H. reflexivity.
Qed.
Lemma ill_not c : ill (c, encode c) = false.
Proof.
  destruct (Z.eq_dec c 65533) as [->|N]; [reflexivity|]. unfold ill. destruct c as [|p|p]; try reflexivity.
  do 16 (destruct p as [p|p|]; try reflexivity).
Qed.
Lemma compile_utf8 s : Forall scalar s -> compile (utf8 s) = pfinish (fold_left step s pstart).
Proof.
  intros H. unfold compile. rewrite <- (app_nil_r (utf8 s)), cells_utf8 by exact H. cbn [cells_of]. rewrite app_nil_r.
  replace (existsb ill _) with false. { rewrite map_map. cbn [fst]. rewrite map_id. reflexivity. }
  symmetry. clear H. induction s as [|c s IH]; [reflexivity|]. cbn [List.map existsb]. rewrite ill_not. exact IH.
Qed.
Lemma ascii_scalars s : Forall (fun c => 0 <= c < 128) s -> Forall scalar s /\ utf8 s = s.
Proof.
  induction 1 as [|c s H _ [IH1 IH2]]; [split; [constructor|reflexivity]|]. split.
  - constructor; auto. unfold scalar. lia.
  - unfold utf8 in *. cbn [flat_map]. rewrite IH2. unfold encode. replace (c <? 128) with true by lia. reflexivity.
Qed.
Lemma uuid_ascii : Forall (fun c => 0 <= c < 128) UUIDGroup.
Proof. apply Forall_forall. intros x I. assert (H : forallb (fun c => (0 <=? c) && (c <? 128)) UUIDGroup = true) by (vm_compute; reflexivity).
  rewrite forallb_forall in H. specialize (H x I). lia. Qed.
Lemma seg_ascii : Forall (fun c => 0 <= c < 128) (text "([^/]+)").
Proof. vm_compute. repeat constructor; discriminate. Qed.
Lemma tail_ascii : Forall (fun c => 0 <= c < 128) (text "(.*)").
Proof. vm_compute. repeat constructor; discriminate. Qed.
Lemma piece_scalars x : lits_ok x -> Forall scalar (piece_runes x) /\ utf8 (piece_runes x) = piece_text x.
Proof.
  destruct x as [s| | |]; intros H.
  - split; [|reflexivity]. eapply Forall_impl; [|exact H]. intros c (S1 & _). exact S1.
  - exact (ascii_scalars _ uuid_ascii).
  - exact (ascii_scalars _ seg_ascii).
  - exact (ascii_scalars _ tail_ascii).
Qed.
Lemma pieces_scalars t : Forall lits_ok t -> Forall scalar (flat_map piece_runes t) /\ utf8 (flat_map piece_runes t) = pieces_text t.
Proof.
  induction 1 as [|x t H _ [IH1 IH2]]; [split; [constructor|reflexivity]|]. destruct (piece_scalars x H) as [P1 P2]. cbn [flat_map]. split.
  - apply Forall_app; auto.
  - unfold utf8, pieces_text in *. rewrite flat_map_app. cbn [flat_map]. congruence.
Qed.

Definition route_re (t : list piece) : re := cat (RBol :: pieces_re t 0 ++ [REol]).
Lemma compile_route t : Forall lits_ok t -> compile (route t) = Compiled (groups t) (route_re t).
Proof.
  intros H. destruct (pieces_scalars t H) as [S1 S2].
  assert (E : route t = utf8 ([94] ++ flat_map piece_runes t ++ [36])).
  { unfold route. unfold utf8 in *. rewrite !flat_map_app, S2. reflexivity. }
  rewrite E, compile_utf8. 2:{ repeat (apply Forall_app; split); auto; repeat constructor; unfold scalar; lia. }
  rewrite !fold_left_app. unfold pstart. cbn [fold_left step plain_step]. unfold push at 1. cbn [fgroup falts fitems fcounted].
  destruct (run_pieces t H 0%nat [] [RBol] Operand false [] 0%nat) as (l & b & ->).
  cbn [fold_left step plain_step pfinish]. unfold push. cbn [fgroup falts fitems fcounted]. f_equal. unfold frame_re. cbn [falts fitems rev app fold_left].
  unfold items_re, route_re, cat. cbn [rev]. rewrite rev_app_distr, rev_involutive. reflexivity.
Qed.

Lemma starok_cat l : Forall starok l -> starok (cat l).
Proof. induction 1; cbn; auto. Qed.

(** ** What a route matches *)
Section Run.
  Variable cs : list cell.
  Notation len := (@List.length _).

  Lemma means_cat_app l1 : forall l2 p c q d, means cs (cat (l1 ++ l2)) p c q d -> exists m e, means cs (cat l1) p c m e /\ means cs (cat l2) m e q d.
  Proof.
    induction l1 as [|r l1 IH]; intros l2 p c q d M; [exists p, c; split; [constructor|exact M]|].
    cbn [app cat fold_right] in M. inversion M as [| | | |? ? ? ? m e ? ? M1 M2| | | | |]; subst.
    destruct (IH _ _ _ _ _ M2) as (m' & e' & A & B). exists m', e'. split; [|exact B]. cbn. econstructor; eauto.
  Qed.
  Lemma means_cat_join l1 : forall l2 p c m e q d, means cs (cat l1) p c m e -> means cs (cat l2) m e q d -> means cs (cat (l1 ++ l2)) p c q d.
  Proof.
    induction l1 as [|r l1 IH]; intros l2 p c m e q d M1 M2; cbn in M1; inversion M1; subst; [exact M2|].
    cbn. econstructor; eauto.
  Qed.

  (** sequences of classes *)
  Fixpoint classes (r : re) : option (list (Z -> bool)) :=
    match r with
    | REmpty => Some []
    | RClass neg ranges => Some [in_class neg ranges]
    | RCat a b => match classes a, classes b with Some x, Some y => Some (x ++ y) | _, _ => None end
    | _ => None
    end.
  Notation in_classes := (Forall2 (fun (f : Z -> bool) (x : cell) => f (fst x) = true)).
  Lemma means_classes r : forall l, classes r = Some l -> forall pre rest c q d, cs = pre ++ rest -> means cs r (len pre) c q d ->
    d = c /\ exists xs rest', rest = xs ++ rest' /\ q = len (pre ++ xs) /\ in_classes l xs.
  Proof.
    induction r as [|neg ranges| | |a IHa b IHb|a _ b _|g a _|n a _]; cbn [classes]; intros l E pre rest c q d C M; try discriminate.
    - inversion E; subst. inversion M; subst. split; [reflexivity|]. exists [], rest. rewrite app_nil_r. repeat split; auto.
    - inversion E; subst l. inversion M as [|? ? ? ? x bs N X| | | | | | | |]; subst. split; [reflexivity|].
      rewrite nth_error_app2, Nat.sub_diag in N by lia. destruct rest as [|y rest]; [discriminate|]. inversion N; subst.
      exists [(x, bs)], rest. split; [reflexivity|]. split; [rewrite app_length; cbn; lia|]. constructor; auto.
    - destruct (classes a) as [x|] eqn:A; [|discriminate]. destruct (classes b) as [y|] eqn:B; [|discriminate]. inversion E; subst l.
      revert C; inversion M as [| | | |? ? ? ? m e ? ? M1 M2| | | | |]; subst; intros C.
      destruct (IHa _ eq_refl pre rest c m e C M1) as (-> & xs & rest1 & R1 & -> & F1).
      destruct (IHb _ eq_refl (pre ++ xs) rest1 c q d) as (-> & ys & rest2 & R2 & -> & F2); [rewrite C, R1, app_assoc; reflexivity|exact M2|].
      split; [reflexivity|]. exists (xs ++ ys), rest2. split; [rewrite R1, R2, app_assoc; reflexivity|]. split; [rewrite app_assoc; reflexivity|].
      apply Forall2_app; auto.
  Qed.
  Lemma classes_means r : forall l, classes r = Some l -> forall pre xs post c, cs = pre ++ xs ++ post -> in_classes l xs ->
    means cs r (len pre) c (len (pre ++ xs)) c.
  Proof.
    induction r as [|neg ranges| | |a IHa b IHb|a _ b _|g a _|n a _]; cbn [classes]; intros l E pre xs post c C F; try discriminate.
    - inversion E; subst l. inversion F; subst. rewrite app_nil_r. constructor.
    - inversion E; subst l. inversion F as [|? [x bs] ? ? X F']; subst. inversion F'; subst.
      rewrite app_length. cbn [List.length]. rewrite Nat.add_1_r.
      econstructor; [|exact X]. rewrite nth_error_app2, Nat.sub_diag by lia. reflexivity.
    - destruct (classes a) as [x|] eqn:A; [|discriminate]. destruct (classes b) as [y|] eqn:B; [|discriminate]. inversion E; subst l.
      apply Forall2_app_inv_l in F as (xa & xb & Fa & Fb & ->). econstructor.
      + eapply IHa; [reflexivity| |exact Fa]. rewrite C, <- !app_assoc. reflexivity.
      + rewrite app_assoc. eapply IHb; [reflexivity| |exact Fb]. rewrite C, <- !app_assoc. reflexivity.
  Qed.
  (** any number of times one class *)
  Lemma means_star_class neg ranges p c q d : means cs (RStar true (RClass neg ranges)) p c q d -> forall pre rest, cs = pre ++ rest -> p = len pre ->
    d = c /\ exists xs rest', rest = xs ++ rest' /\ q = len (pre ++ xs) /\ Forall (fun x => in_class neg ranges (fst x) = true) xs.
  Proof.
    intros M. remember (RStar true (RClass neg ranges)) as r eqn:R.
    induction M as [| | | | | | |g a p c|g a p c q d e f M1 _ M2 IH2|]; try discriminate; inversion R; subst; intros pre rest C ->.
    - split; [reflexivity|]. exists [], rest. rewrite app_nil_r. auto.
    - destruct (means_classes (RClass neg ranges) _ eq_refl pre rest c q d C M1) as (-> & xs & rest1 & R1 & -> & F1).
      destruct (IH2 eq_refl (pre ++ xs) rest1) as (-> & ys & rest2 & R2 & -> & F2); [rewrite <- app_assoc; congruence|reflexivity|].
      split; [reflexivity|]. exists (xs ++ ys), rest2. split; [rewrite R1, R2, app_assoc; reflexivity|]. split; [rewrite app_assoc; reflexivity|].
      apply Forall_app. split; [|exact F2]. inversion F1 as [|? ? ? ? X Y]; subst. inversion Y; subst. auto.
  Qed.
  Lemma star_class_means neg ranges xs : Forall (fun x => in_class neg ranges (fst x) = true) xs -> forall pre post c, cs = pre ++ xs ++ post ->
    means cs (RStar true (RClass neg ranges)) (len pre) c (len (pre ++ xs)) c.
  Proof.
    induction 1 as [|x xs X _ IH]; intros pre post c C.
    - rewrite app_nil_r. constructor.
    - econstructor.
      + eapply (classes_means (RClass neg ranges) _ eq_refl pre [x] (xs ++ post)); [exact C|]. repeat constructor. exact X.
      + replace (pre ++ x :: xs) with ((pre ++ [x]) ++ xs) by (rewrite <- app_assoc; reflexivity). apply (IH _ post). rewrite <- app_assoc. exact C.
  Qed.
  Lemma between_mid pre xs post : cs = pre ++ xs ++ post -> bytes_between cs (len pre) (len (pre ++ xs)) = flat_map snd xs.
  Proof.
    intros ->. unfold bytes_between. rewrite skipn_app, skipn_all, Nat.sub_diag. cbn [skipn app].
    replace (len (pre ++ xs) - len pre)%nat with (len xs) by (rewrite app_length; lia).
    rewrite firstn_app, firstn_all, Nat.sub_diag. cbn [firstn]. rewrite app_nil_r. reflexivity.
  Qed.
End Run.
Notation len := (@List.length _).
Notation in_classes := (Forall2 (fun (f : Z -> bool) (x : cell) => f (fst x) = true)).

From Coq Require Import ZifyBool.
(** ** Classes of runes and of bytes *)
Lemma in_one c x : in_class false [(c, c)] x = true <-> x = c.
Proof. unfold in_class. cbn [existsb]. lia. Qed.
Lemma in_hex x : in_class false [(97, 102); (65, 70); (48, 57)] x = true <-> hex x.
Proof. unfold in_class, hex. cbn [existsb]. lia. Qed.
Lemma in_noslash x : in_class true [(47, 47)] x = true <-> x <> 47.
Proof. unfold in_class. cbn [existsb]. lia. Qed.

Lemma in_nolf x : in_class true [(10, 10)] x = true <-> x <> 10.
Proof. unfold in_class. cbn [existsb]. lia. Qed.

Lemma good_ascii x bs : good_cell (x, bs) -> x < 128 -> bs = [x].
Proof. intros [(-> & _)|[(_ & _ & E)|(_ & L & _)]] H; auto; lia. Qed.
Lemma good_encode x bs : good_cell (x, bs) -> x <> 65533 -> bs = encode x.
Proof. intros [(-> & _)|[(E & _)|(E & _)]] H; auto. congruence. Qed.
Lemma good_slash x bs : good_cell (x, bs) -> x <> 47 -> bs <> [] /\ ~ In 47 bs.
Proof.
  intros [(_ & b & -> & L)|[(_ & _ & ->)|(E & L & F)]] H.
  - split; [discriminate|]. intros [|[]]; lia.
  - split; [discriminate|]. intros [|[]]; lia.
  - split.
    + rewrite E. unfold encode. repeat (match goal with |- context[if ?b then _ else _] => destruct b end); discriminate.
    + intros I. rewrite Forall_forall in F. specialize (F 47 I). lia.
Qed.

Lemma good_lf x bs : good_cell (x, bs) -> x <> 10 -> ~ In 10 bs.
Proof.
  intros [(_ & b & -> & L)|[(_ & _ & ->)|(E & L & F)]] H.
  - intros [|[]]; lia.
  - intros [|[]]; lia.
  - intros I. rewrite Forall_forall in F. specialize (F 10 I). lia.
Qed.

Lemma in_classes_repeat n xs : in_classes (repeat (in_class false [(97, 102); (65, 70); (48, 57)]) n) xs -> Forall good_cell xs ->
  hexes n (flat_map snd xs).
Proof.
  revert xs. induction n as [|n IH]; intros xs F G; cbn [repeat] in F; inversion F as [|? [x bs] ? ys X F']; subst.
  - split; [reflexivity|constructor].
  - inversion G as [|? ? G1 G2]; subst. destruct (IH ys F' G2) as [L H]. cbn [fst] in X. apply in_hex in X.
    cbn [flat_map snd]. rewrite (good_ascii x bs G1) by (unfold hex in X; lia). split; [cbn; congruence|constructor; auto].
Qed.
Lemma repeat_in_classes n u : hexes n u ->
  in_classes (repeat (in_class false [(97, 102); (65, 70); (48, 57)]) n) (List.map (fun c => (c, encode c)) u).
Proof.
  intros [<- H]. induction H as [|c u H _ IH]; [constructor|]. cbn. constructor; [|exact IH]. apply in_hex. exact H.
Qed.
Lemma in_dash xs : in_classes [in_class false [(45, 45)]] xs -> Forall good_cell xs -> flat_map snd xs = [45].
Proof.
  intros F G. inversion F as [|? [x bs] ? ys X F']; subst. inversion F'; subst. inversion G; subst. cbn [fst] in X. apply in_one in X.
  cbn [flat_map snd]. rewrite (good_ascii x bs) by (auto; lia). subst x. reflexivity.
Qed.
Definition hexb : Z -> bool := in_class false [(97, 102); (65, 70); (48, 57)].
Definition dashb : Z -> bool := in_class false [(45, 45)].
Lemma classes_uuid : classes uuid_re =
  Some (repeat hexb 8 ++ [dashb] ++ repeat hexb 4 ++ [dashb] ++ repeat hexb 4 ++ [dashb] ++ repeat hexb 4 ++ [dashb] ++ repeat hexb 12).
Proof. reflexivity. Qed.
Lemma uuid_classes xs l : classes uuid_re = Some l -> in_classes l xs -> Forall good_cell xs -> is_uuid (flat_map snd xs).
Proof.
  rewrite classes_uuid. intros E F G. assert (X : l = (repeat hexb 8 ++ [dashb] ++ repeat hexb 4 ++ [dashb] ++ repeat hexb 4 ++ [dashb] ++ repeat hexb 4 ++ [dashb] ++ repeat hexb 12)) by congruence. rewrite X in F. clear X E. change hexb with (in_class false [(97, 102); (65, 70); (48, 57)]) in F.
  change dashb with (in_class false [(45, 45)]) in F.
  apply Forall2_app_inv_l in F as (x1 & y1 & F1 & F & ->). apply Forall2_app_inv_l in F as (z1 & y2 & D1 & F & ->).
  apply Forall2_app_inv_l in F as (x2 & y3 & F2 & F & ->). apply Forall2_app_inv_l in F as (z2 & y4 & D2 & F & ->).
  apply Forall2_app_inv_l in F as (x3 & y5 & F3 & F & ->). apply Forall2_app_inv_l in F as (z3 & y6 & D3 & F & ->).
  apply Forall2_app_inv_l in F as (x4 & y7 & F4 & F & ->). apply Forall2_app_inv_l in F as (z4 & x5 & D4 & F5 & ->).
  rewrite !Forall_app in G. destruct G as (G1 & K1 & G2 & K2 & G3 & K3 & G4 & K4 & G5).
  rewrite !flat_map_app. rewrite (in_dash z1), (in_dash z2), (in_dash z3), (in_dash z4) by assumption.
  exists (flat_map snd x1), (flat_map snd x2), (flat_map snd x3), (flat_map snd x4), (flat_map snd x5).
  repeat (split; [apply in_classes_repeat; assumption|]). reflexivity.
Qed.
Lemma classes_of_uuid u l : is_uuid u -> classes uuid_re = Some l -> in_classes l (List.map (fun c => (c, encode c)) u).
Proof.
  intros (a & b & c & d & e & A & B & C & D & E & ->). rewrite classes_uuid. intros X. assert (Y : l = (repeat hexb 8 ++ [dashb] ++ repeat hexb 4 ++ [dashb] ++ repeat hexb 4 ++ [dashb] ++ repeat hexb 4 ++ [dashb] ++ repeat hexb 12)) by congruence. rewrite Y. clear X Y.
  rewrite !map_app. repeat (apply Forall2_app); try (apply repeat_in_classes; assumption); repeat constructor.
Qed.
Lemma uuid_ascii_text u : is_uuid u -> Forall (fun c => 0 <= c < 128) u.
Proof.
  intros (a & b & c & d & e & [_ A] & [_ B] & [_ C] & [_ D] & [_ E] & ->).
  assert (H : forall s, Forall hex s -> Forall (fun c => 0 <= c < 128) s).
  { intros s F. eapply Forall_impl; [|exact F]. unfold hex. intros; lia. }
  repeat (apply Forall_app; split); auto; repeat constructor; lia.
Qed.
Lemma uuid_len u : is_uuid u -> len u = 36%nat.
Proof.
  intros (a & b & c & d & e & [A _] & [B _] & [C _] & [D _] & [E _] & ->). rewrite !app_length. cbn. lia.
Qed.

Lemma lit_classes s : classes (cat (List.map rchar s)) = Some (List.map (fun c => in_class false [(c, c)]) s).
Proof. induction s as [|c s IH]; [reflexivity|]. cbn [List.map cat fold_right classes rchar]. unfold cat in IH. rewrite IH. reflexivity. Qed.
Lemma lit_cells s : Forall plain_rune s -> forall xs, in_classes (List.map (fun c => in_class false [(c, c)]) s) xs -> Forall good_cell xs ->
  flat_map snd xs = utf8 s.
Proof.
  induction 1 as [|c s (_ & N & _) _ IH]; intros xs F G; inversion F as [|? [x bs] ? ys X F']; subst; [reflexivity|].
  inversion G as [|? ? G1 G2]; subst. cbn [fst] in X. apply in_one in X. subst x. unfold utf8 in *. cbn [flat_map snd]. rewrite (IH ys) by auto.
  rewrite (good_encode c bs) by auto. reflexivity.
Qed.
Lemma cells_lit s : in_classes (List.map (fun c => in_class false [(c, c)]) s) (List.map (fun c => (c, encode c)) s).
Proof. induction s; cbn; constructor; auto. cbn [fst]. apply in_one. reflexivity. Qed.
Lemma seg_cells xs : Forall (fun x : cell => in_class true [(47, 47)] (fst x) = true) xs -> Forall good_cell xs -> ~ In 47 (flat_map snd xs).
Proof.
  induction 1 as [|[x bs] xs X _ IH]; intros G; [intros []|]. inversion G as [|? ? G1 G2]; subst. cbn [fst] in X. apply in_noslash in X. cbn [flat_map snd].
  intros I. apply in_app_or in I as [I|I]; [apply (good_slash x bs G1 X); exact I|apply IH; auto].
Qed.
Lemma cells_seg s : ~ In 47 s -> Forall (fun x : cell => in_class true [(47, 47)] (fst x) = true) (cells_of s).
Proof.
  intros N. apply Forall_forall. intros [x bs] I. cbn [fst]. apply in_noslash. intros ->.
  pose proof (cells_good s) as G. rewrite Forall_forall in G. specialize (G _ I). apply good_ascii in G; [|lia]. subst bs. apply N.
  rewrite <- (cells_bytes s). apply in_flat_map. exists (47, [47]). split; [exact I|left; reflexivity].
Qed.

Lemma tail_cells xs : Forall (fun x : cell => in_class true [(10, 10)] (fst x) = true) xs -> Forall good_cell xs -> ~ In 10 (flat_map snd xs).
Proof.
  induction 1 as [|[x bs] xs X _ IH]; intros G; [intros []|]. inversion G as [|? ? G1 G2]; subst. cbn [fst] in X. apply in_nolf in X. cbn [flat_map snd].
  intros I. apply in_app_or in I as [I|I]; [apply (good_lf x bs G1 X); exact I|apply IH; auto].
Qed.
Lemma cells_tail s : ~ In 10 s -> Forall (fun x : cell => in_class true [(10, 10)] (fst x) = true) (cells_of s).
Proof.
  intros N. apply Forall_forall. intros [x bs] I. cbn [fst]. apply in_nolf. intros ->.
  pose proof (cells_good s) as G. rewrite Forall_forall in G. specialize (G _ I). apply good_ascii in G; [|lia]. subst bs. apply N.
  rewrite <- (cells_bytes s). apply in_flat_map. exists (10, [10]). split; [exact I|left; reflexivity].
Qed.

(** ** A match of a route is a path of its form *)
Lemma pieces_means cs t : Forall lits_ok t -> forall g pre rest c q d, cs = pre ++ rest -> Forall good_cell rest ->
  means cs (cat (pieces_re t g)) (len pre) c q d ->
  exists xs rest' spans vals, rest = xs ++ rest' /\ q = len (pre ++ xs) /\ fits t (flat_map snd xs) vals /\ d = rev (combine (seq (S g) (groups t)) spans) ++ c /\
    len spans = groups t /\ List.map (fun '(p, q) => bytes_between cs p q) spans = vals.
Proof.
  induction 1 as [|x t H _ IH]; intros g pre rest c q d C G M.
  - cbn in M. revert C. inversion M; subst; intros C. exists [], rest, [], []. rewrite app_nil_r. repeat split; auto. constructor.
  - cbn [pieces_re] in M. apply means_cat_app in M as (m & e & M1 & M2).
    assert (GRP : forall xs rest' span val, rest = xs ++ rest' -> span = (len pre, len (pre ++ xs)) -> bytes_between cs (len pre) (len (pre ++ xs)) = val -> val = flat_map snd xs ->
      (forall rest'' vals, fits t rest'' vals -> fits (x :: t) (val ++ rest'') (val :: vals)) -> piece_groups x = 1%nat ->
      m = len (pre ++ xs) -> e = (S g, span) :: c ->
      exists xs' rest'' spans vals, rest = xs' ++ rest'' /\ q = len (pre ++ xs') /\ fits (x :: t) (flat_map snd xs') vals /\ d = rev (combine (seq (S g) (groups (x :: t))) spans) ++ c /\
        len spans = groups (x :: t) /\ List.map (fun '(p, q) => bytes_between cs p q) spans = vals).
    { intros xs rest' span val R Sp B V Fi P1 -> ->. rewrite P1 in M2.
      destruct (IH (g + 1)%nat (pre ++ xs) rest' ((S g, span) :: c) q d) as (ys & rest2 & spans & vals & R2 & Q & F & D & L & W).
      { rewrite <- app_assoc. congruence. } { rewrite R in G. apply Forall_app in G as [_ G]. exact G. } { exact M2. }
      exists (xs ++ ys), rest2, (span :: spans), (val :: vals). split; [rewrite R, R2, app_assoc; reflexivity|].
      split; [rewrite app_assoc; exact Q|]. cbn [groups]. rewrite P1. split.
      { rewrite flat_map_app, <- V. apply Fi, F. }
      split; [|split; [cbn; lia|cbn [List.map]; rewrite W, Sp, B; reflexivity]].
      rewrite D. cbn [Nat.add seq combine rev]. rewrite Nat.add_1_r, <- app_assoc. reflexivity. }
    destruct x as [s| | |]; cbn [piece_re] in M1.
    + destruct (means_classes cs _ _ (lit_classes s) pre rest c m e C M1) as (-> & xs & rest' & R & -> & F1).
      rewrite R in G. apply Forall_app in G as [G1 G2]. cbn [piece_groups] in M2. rewrite Nat.add_0_r in M2.
      destruct (IH g (pre ++ xs) rest' c q d) as (ys & rest2 & spans & vals & R2 & Q & F & D & L & W); auto.
      { rewrite <- app_assoc. congruence. }
      exists (xs ++ ys), rest2, spans, vals. split; [rewrite R, R2, app_assoc; reflexivity|]. split; [rewrite app_assoc; exact Q|].
      split; [|auto]. rewrite flat_map_app, (lit_cells s H xs F1 G1). constructor. exact F.
    + inversion M1 as [| | | |? ? ? ? m1 e1 ? ? M3 M4| | | | |]; subst a b p c0 e0 f. inversion M4; subst p c0 m1 e1. clear M4.
      inversion M3 as [| | | | | | | | |n a p c0 q0 d0 M5]; subst n a p c0 q0 e.
      destruct (means_classes cs uuid_re _ classes_uuid pre rest c m d0 C M5) as (-> & xs & rest' & R & E & F1).
      assert (G1 : Forall good_cell xs) by (rewrite R in G; apply Forall_app in G as [G1 _]; exact G1).
      eapply (GRP xs rest' _ (flat_map snd xs) R eq_refl); auto.
      * eapply between_mid. rewrite C, R. reflexivity.
      * intros. constructor; auto. eapply uuid_classes; eauto. apply classes_uuid.
      * rewrite E. reflexivity.
    + inversion M1 as [| | | |? ? ? ? m1 e1 ? ? M3 M4| | | | |]; subst a b p c0 e0 f. inversion M4; subst p c0 m1 e1. clear M4.
      inversion M3 as [| | | | | | | | |n a p c0 q0 d0 M5]; subst n a p c0 q0 e.
      unfold seg_re in M5. cbn [fold_right] in M5. inversion M5 as [| | | |? ? ? ? m1 e1 ? ? M6 M7| | | | |]; subst a b p c0 e f. inversion M7; subst p c0 m1 e1. clear M7.
      inversion M6 as [| | | |? ? ? ? m1 e1 ? ? M8 M9| | | | |]; subst a b p c0 e f.
      destruct (means_classes cs noslash _ eq_refl pre rest c m1 e1 C M8) as (-> & xs & rest' & R & -> & F1).
      destruct (means_star_class cs true [(47, 47)] _ _ _ _ M9 (pre ++ xs) rest') as (-> & ys & rest'' & R' & E & F2).
      { rewrite <- app_assoc. congruence. } { reflexivity. }
      assert (G1 : Forall good_cell (xs ++ ys)).
      { rewrite R, R', app_assoc in G. apply Forall_app in G as [G1 _]. exact G1. }
      destruct xs as [|[x bs] xs]; [inversion F1|]. assert (XS : xs = []) by (inversion F1 as [|? ? ? ? ? F3]; inversion F3; reflexivity). subst xs.
      assert (X : in_class true [(47, 47)] (fst (x, bs)) = true) by (inversion F1; assumption).
      assert (NS : Forall (fun x : cell => in_class true [(47, 47)] (fst x) = true) ([(x, bs)] ++ ys)) by (constructor; [exact X|exact F2]).
      eapply (GRP ([(x, bs)] ++ ys) rest'' _ (flat_map snd ([(x, bs)] ++ ys))); auto.
      * rewrite R, R', app_assoc. reflexivity.
      * apply (between_mid cs pre _ rest''). rewrite C, R, R', <- app_assoc. reflexivity.
      * intros. constructor; auto.
        -- cbn [flat_map app snd]. inversion G1 as [|? ? G2 G3]; subst. cbn [fst] in X. apply in_noslash in X. destruct (good_slash x bs G2 X) as [NE _].
           destruct bs; [congruence|discriminate].
        -- apply seg_cells; auto.
      * rewrite E, <- app_assoc. reflexivity.
      * rewrite E, <- app_assoc. reflexivity.
    + inversion M1 as [| | | |? ? ? ? m1 e1 ? ? M3 M4| | | | |]; subst a b p c0 e0 f. inversion M4; subst p c0 m1 e1. clear M4.
      inversion M3 as [| | | | | | | | |n a p c0 q0 d0 M5]; subst n a p c0 q0 e.
      unfold tail_re in M5. cbn [fold_right] in M5. inversion M5 as [| | | |? ? ? ? m1 e1 ? ? M6 M7| | | | |]; subst a b p c0 e f. inversion M7; subst p c0 m1 e1. clear M7.
      destruct (means_star_class cs true [(10, 10)] _ _ _ _ M6 pre rest C eq_refl) as (-> & xs & rest' & R & E & F1).
      assert (G1 : Forall good_cell xs) by (rewrite R in G; apply Forall_app in G as [G1 _]; exact G1).
      eapply (GRP xs rest' _ (flat_map snd xs) R eq_refl); auto.
      * eapply between_mid. rewrite C, R. reflexivity.
      * intros. constructor; auto. apply tail_cells; auto.
      * rewrite E. reflexivity.
Qed.
