(** Proofs for C104: what os.RemoveAll of an unprivileged process removes.  Helper definitions here model no code. *)
From Coq Require Import ZArith List Bool Lia.
From Verif Require Import Base Code Path PathSpec UnixFs UnixFsSpec UnixFsProofs UnixFsProofs2 UnixFsProofs3.
Import ListNotations.
Open Scope Z_scope.

(** looking up a place given from the top *)
Fixpoint below (n : node) (p : list (list Z)) : option node :=
  match p with [] => Some n | w :: p => match n with Dir _ _ _ es => match entry w es with Some e => below e p | None => None end | File => None end end.
Lemma below_app n p : forall q, below n (p ++ q) = match below n p with Some m => below m q | None => None end.
Proof.
  revert n. induction p as [|w p IH]; intros n q; [reflexivity|]. cbn [app below]. destruct n as [|r w' x es]; [reflexivity|]. destruct (entry w es); [apply IH|reflexivity].
Qed.
Lemma node_below t p : forall l, node_at t (rev p ++ l) = match node_at t l with Some n => below n p | None => None end.
Proof.
  induction p as [|w p IH] using rev_ind; intros l; [cbn [rev app]; destruct (node_at t l); reflexivity|]. rewrite rev_app_distr. cbn [rev app node_at]. rewrite IH.
  destruct (node_at t l) as [n|]; [|reflexivity]. rewrite below_app. destruct (below n p) as [[|]|]; try reflexivity. cbn [below]. destruct (entry w entries); reflexivity.
Qed.
Definition kind (o : option node) : option thing := match o with Some File => Some AFile | Some (Dir r w x _) => Some (ADir r w x) | None => None end.

(** removable, from the top *)
Fixpoint remb (pw px : bool) (n : node) (p : list (list Z)) : bool :=
  match p with
  | [] => pw && px
  | nm :: p => match n with Dir r w x es => px && r && match entry nm es with Some e => remb w x e p | None => false end | File => false end
  end.
Inductive neat : node -> Prop :=
| neat_file : neat File
| neat_dir r w x es : NoDup (map fst es) -> (forall nm e, entry nm es = Some e -> neat e) -> neat (Dir r w x es).
Fixpoint go (w x : bool) (es : list (list Z * node)) : list (list Z * node) :=
  match es with [] => [] | (nm, e) :: es => match remove_tree false w x e with Some e => [(nm, e)] | None => [] end ++ go w x es end.
Lemma remove_dir pw px r w x es : remove_tree false pw px (Dir r w x es) =
  match (if px && r then go w x es else es) with [] => if pw && px then None else Some (Dir r w x []) | _ => Some (Dir r w x (if px && r then go w x es else es)) end.
Proof.
  cbn [remove_tree orb]. assert (E : forall l, (fix go (es : list (list Z * node)) := match es with [] => [] | (nm, e) :: es => match remove_tree false w x e with Some e => [(nm, e)] | None => [] end ++ go es end) l = go w x l).
  { induction l as [|[nm e] l IH]; [reflexivity|]. cbn [go]. rewrite <- IH. reflexivity. }
  rewrite E. reflexivity.
Qed.
Lemma entry_cons v w e es : entry v ((w, e) :: es) = if path_eqb v w then Some e else entry v es.
Proof. unfold entry. cbn [find fst]. destruct (path_eqb v w); reflexivity. Qed.
Lemma entry_in v es e : entry v es = Some e -> In v (map fst es).
Proof.
  induction es as [|[w n] es IH]; [discriminate|]. rewrite entry_cons. destruct (path_eqb v w) eqn:E; [intros _; left; symmetry; apply path_eqb_true; exact E|]. intros H. right. apply IH. exact H.
Qed.
Lemma go_entry w x es : NoDup (map fst es) -> forall v, entry v (go w x es) = match entry v es with Some e => remove_tree false w x e | None => None end.
Proof.
  induction es as [|[nm e] es IH]; intros D v; [reflexivity|]. cbn [map fst] in D. inversion D as [|? ? N D']; subst. cbn [go]. rewrite entry_cons.
  destruct (path_eqb v nm) eqn:E.
  - apply path_eqb_true in E. subst nm. destruct (remove_tree false w x e) as [e'|]; cbn [app]; [rewrite entry_cons, path_eqb_refl; reflexivity|].
    rewrite IH by exact D'. destruct (entry v es) eqn:Q; [elim N; exact (entry_in _ _ _ Q)|reflexivity].
  - destruct (remove_tree false w x e) as [e'|]; cbn [app]; [rewrite entry_cons, E|]; apply IH; exact D'.
Qed.
Lemma entries_none es : (forall v, entry v es = None) -> es = [].
Proof. destruct es as [|[w e] es]; [reflexivity|]. intros H. specialize (H w). rewrite entry_cons, path_eqb_refl in H. discriminate. Qed.

(** something at [p] or below cannot be removed *)
Definition keeps (pw px : bool) (n : node) (p : list (list Z)) : Prop := exists q, below n (p ++ q) <> None /\ remb pw px n (p ++ q) = false.
Lemma remove_spec n : neat n -> forall pw px p,
  match remove_tree false pw px n with
  | None => ~ keeps pw px n p
  | Some m => keeps pw px n p /\ kind (below m p) = kind (below n p) \/ ~ keeps pw px n p /\ below m p = None
  end.
Proof.
  induction 1 as [|r w x es D Ne IH]; intros pw px p.
  - cbn [remove_tree orb]. destruct p as [|v p].
    + destruct (pw && px) eqn:E; [intros ([|u q] & A & B); [cbn in B; congruence|apply A; reflexivity]|]. left. split; [exists []; split; [discriminate|exact E]|reflexivity].
    + assert (K : ~ keeps pw px File (v :: p)) by (intros (q & A & _); apply A; reflexivity). destruct (pw && px); [exact K|right; split; [exact K|reflexivity]].
  - rewrite remove_dir. set (es' := if px && r then go w x es else es).
    assert (En : forall v, entry v es' = if px && r then match entry v es with Some e => remove_tree false w x e | None => None end else entry v es).
    { intros v. unfold es'. destruct (px && r); [apply go_entry; exact D|reflexivity]. }
    assert (Sub : forall v p, keeps pw px (Dir r w x es) (v :: p) <-> exists e, entry v es = Some e /\ ((px && r = true /\ keeps w x e p) \/ (px && r = false /\ below e p <> None))).
    { intros v p'. unfold keeps. cbn [app below remb]. destruct (entry v es) as [e|].
      - split.
        + intros (q & A & B). exists e. split; [reflexivity|]. destruct (px && r) eqn:E; [left; split; [reflexivity|exists q; auto]|right; split; [reflexivity|]].
          rewrite below_app in A. destruct (below e p'); [discriminate|exact A].
        + intros (e' & Ee & [[E (q & A & B)]|[E A]]); injection Ee as <-; rewrite E; [exists q; auto|exists []; rewrite app_nil_r; auto].
      - split; [intros (q & A & _); elim A; reflexivity|intros (e & A & _); discriminate]. }
    assert (Up : forall v p, keeps pw px (Dir r w x es) (v :: p) -> keeps pw px (Dir r w x es) []) by (intros v p' (q & A & B); exists ((v :: p') ++ q); auto).
    assert (St : forall v e', entry v es' = Some e' -> keeps pw px (Dir r w x es) [v]).
    { intros v e' E'. apply Sub. rewrite En in E'. destruct (px && r) eqn:E.
      - destruct (entry v es) as [e|] eqn:Ee; [|discriminate]. exists e. split; [reflexivity|]. left. split; [reflexivity|]. specialize (IH v e Ee w x []). rewrite E' in IH.
        destruct IH as [[K _]|[_ K]]; [exact K|discriminate].
      - exists e'. split; [exact E'|]. right. split; [reflexivity|discriminate]. }
    assert (Main : forall v p, keeps pw px (Dir r w x es) (v :: p) /\ kind (below (Dir r w x es') (v :: p)) = kind (below (Dir r w x es) (v :: p)) \/
      ~ keeps pw px (Dir r w x es) (v :: p) /\ below (Dir r w x es') (v :: p) = None).
    { intros v p'. rewrite Sub. cbn [below]. rewrite En. destruct (px && r) eqn:E.
      - destruct (entry v es) as [e|] eqn:Ee; [|right; split; [intros (e & A & _); discriminate|reflexivity]]. specialize (IH v e Ee w x p').
        destruct (remove_tree false w x e) as [m|].
        + destruct IH as [[K Q]|[K Q]]; [left|right]; (split; [|exact Q]).
          * exists e. auto.
          * intros (e' & A & [[_ B]|[B _]]); [injection A as <-; exact (K B)|discriminate].
        + right. split; [|reflexivity]. intros (e' & A & [[_ B]|[B _]]); [injection A as <-; exact (IH B)|discriminate].
      - destruct (entry v es) as [e|] eqn:Ee; [|right; split; [intros (e & A & _); discriminate|reflexivity]].
        destruct (below e p') as [n|] eqn:Q; [left|right]; (split; [|reflexivity]).
        + exists e. split; [reflexivity|]. right. split; [reflexivity|]. rewrite Q. discriminate.
        + intros (e' & A & [[B _]|[_ B]]); [discriminate|]. injection A as <-. exact (B Q). }
    destruct es' as [|[nm z] zs] eqn:Ez.
    + destruct (pw && px) eqn:E.
      * assert (K0 : ~ keeps pw px (Dir r w x es) []).
        { intros ([|v q] & A & B); [cbn in B; congruence|]. destruct (Main v q) as [[_ Q]|[K _]]; [|apply K; exists []; rewrite app_nil_r; split; assumption].
          cbn [below] in Q. change (entry v []) with (@None node) in Q. cbn [app] in A. cbn [below] in A. destruct (match entry v es with Some e => below e q | None => None end) as [[|]|]; [discriminate|discriminate|exact (A eq_refl)]. }
        destruct p as [|v p]; [exact K0|intros K; exact (K0 (Up _ _ K))].
      * destruct p as [|v p]; [left; split; [exists []; split; [discriminate|exact E]|reflexivity]|apply Main].
    + destruct p as [|v p]; [|apply Main]. left. split; [|reflexivity]. apply (Up nm []). apply (St nm z). rewrite entry_cons, path_eqb_refl. reflexivity.
Qed.
Lemma neat_proper t : (forall p r w x es, below t p = Some (Dir r w x es) -> NoDup (map fst es)) -> neat t.
Proof.
  revert t. fix F 1. intros [|r w x es] H; [constructor|]. constructor; [exact (H [] r w x es eq_refl)|].
  assert (G : forall l nm e, entry nm l = Some e -> (forall p r w x es, below e p = Some (Dir r w x es) -> NoDup (map fst es)) -> neat e).
  { clear H es. fix G 1. intros [|[v n] l] nm e; [discriminate|]. rewrite entry_cons. destruct (path_eqb nm v); [intros E; injection E as <-; apply F|intros E; exact (G l nm e E)]. }
  intros nm e E. apply (G es nm e E). intros p r' w' x' es' B. apply (H (nm :: p) r' w' x' es'). cbn [below]. rewrite E. exact B.
Qed.
Lemma proper_neat t l n : proper t -> node_at t l = Some n -> neat n.
Proof.
  intros P N. apply neat_proper. intros p r w x es B. apply (P (rev p ++ l) r w x es). rewrite node_below, N. exact B.
Qed.
Lemma kind_thing t l p n : node_at t l = Some n -> thing_at t (rev p ++ l) = kind (below n p).
Proof. intros N. unfold thing_at. rewrite node_below, N. reflexivity. Qed.
Lemma remb_removable t : forall p v d n pr pw px, thing_at t d = Some (ADir pr pw px) -> node_at t (v :: d) = Some n -> below n p <> None ->
  (remb pw px n p = true <-> removable t (v :: d) (rev p ++ v :: d)).
Proof.
  induction p as [|nm p IH]; intros v d n pr pw px Td N B.
  - cbn [rev app remb]. unfold removable. cbn [tl]. rewrite Td. rewrite andb_true_iff. split.
    + intros [-> ->]. split; [eauto|]. intros m [a ->] [b Eb]. apply (f_equal (@length _)) in Eb. rewrite !app_length in Eb. cbn [length] in Eb. lia.
    + intros [[r E] _]. injection E as _ -> ->. auto.
  - cbn [remb below] in *. destruct n as [|r w x es]; [elim B; reflexivity|]. destruct (entry nm es) as [e|] eqn:Ee; [|elim B; reflexivity].
    assert (Ne : node_at t (nm :: v :: d) = Some e) by (change (node_at t (nm :: v :: d)) with (match node_at t (v :: d) with Some (Dir _ _ _ es) => entry nm es | _ => None end); rewrite N; exact Ee).
    assert (Tv : thing_at t (v :: d) = Some (ADir r w x)) by (unfold thing_at; rewrite N; reflexivity).
    cbn [rev]. rewrite <- app_assoc. cbn [app]. rewrite !andb_true_iff, (IH nm (v :: d) e r w x Tv Ne B).
    assert (L : exists y b, rev p ++ [nm] = y :: b) by (destruct (rev p ++ [nm]) as [|y b] eqn:E; [destruct (rev p); discriminate|eauto]). destruct L as (y & b & L).
    assert (L2 : rev p ++ nm :: v :: d = y :: b ++ v :: d) by (change (rev p ++ [nm] ++ v :: d = (y :: b) ++ v :: d); rewrite app_assoc, L; reflexivity).
    unfold removable. rewrite L2. cbn [tl]. split.
    + intros [[-> ->] [H1 H2]]. split; [exact H1|]. intros m Wm Wl. destruct Wm as [a ->]. destruct a as [|z a _] using rev_ind.
      * cbn [app tl]. split; [eauto|]. rewrite Td. eauto.
      * apply H2; [|exact Wl]. destruct Wl as [c Ec]. rewrite <- app_assoc in *. cbn [app] in *.
        assert (Ez : c ++ a ++ [z] = b) by (apply (app_inv_tail (v :: d)); rewrite <- !app_assoc; cbn [app]; symmetry; exact Ec).
        assert (z = nm).
        { apply (f_equal (fun l => last (y :: l) [])) in Ez. rewrite <- L, last_last in Ez. rewrite app_assoc, app_comm_cons, last_last in Ez. exact Ez. }
        subst z. exists a. reflexivity.
    + intros [H1 H2]. split.
      * destruct (H2 (v :: d)) as [(w' & x' & A) (r' & w2 & A2)]; [exists []; reflexivity|exists b; reflexivity|]. rewrite Tv in A. injection A as -> _ _. cbn [tl] in A2. rewrite Td in A2. injection A2 as _ _ ->. auto.
      * split; [exact H1|]. intros m [a ->] Wl. apply H2; [exists (a ++ [nm]); rewrite <- app_assoc; reflexivity|exact Wl].
Qed.
Lemma keeps_kept t p v d n pr pw px : thing_at t d = Some (ADir pr pw px) -> node_at t (v :: d) = Some n -> keeps pw px n p <-> kept t (v :: d) (rev p ++ v :: d).
Proof.
  intros Td N. split.
  - intros (q & A & B). exists (rev (p ++ q) ++ v :: d). split; [exists (rev q); rewrite rev_app_distr, app_assoc; reflexivity|]. split.
    + rewrite (kind_thing t _ _ n N). destruct (below n (p ++ q)) as [[|]|]; [discriminate|discriminate|elim A; reflexivity].
    + intros R. apply (remb_removable t (p ++ q) v d n pr pw px Td N A) in R. congruence.
  - intros (l' & [s ->] & A & R). exists (rev s). assert (E : s ++ rev p ++ v :: d = rev (p ++ rev s) ++ v :: d) by (rewrite rev_app_distr, rev_involutive, app_assoc; reflexivity).
    rewrite E in A, R. assert (A' : below n (p ++ rev s) <> None) by (rewrite (kind_thing t _ _ n N) in A; intros X; rewrite X in A; exact (A eq_refl)).
    split; [exact A'|]. apply not_true_iff_false. intros R'. apply R. apply (remb_removable t _ v d n pr pw px Td N A'). exact R'.
Qed.
