(** Lemmas about the tree of a Unix file system (UnixFs.v). *)
From Coq Require Import ZArith List Bool Lia.
From Verif Require Import Base Code Path PathSpec PathProofs CodeSpec PropsCode PropsPath UnixFs.
Import ListNotations.
Open Scope Z_scope.

Lemma path_eqb_true a b : path_eqb a b = true <-> a = b.
Proof. unfold path_eqb. destruct (list_eq_dec Z.eq_dec a b); split; congruence. Qed.
Lemma path_eqb_refl a : path_eqb a a = true.
Proof. apply path_eqb_true. reflexivity. Qed.

(** ** Entries and places *)
Lemma entry_set w n es v : entry v (set_entry w n es) = if path_eqb v w then n else entry v es.
Proof.
  unfold entry, set_entry. destruct (path_eqb v w) eqn:E.
  - apply path_eqb_true in E. subst v. destruct n as [n|]; cbn [app find fst]; [rewrite path_eqb_refl; reflexivity|].
    induction es as [|e es IH]; [reflexivity|]. cbn [filter]. destruct (path_eqb w (fst e)) eqn:F; cbn [negb]; [exact IH|]. cbn [find]. rewrite F. exact IH.
  - assert (H : find (fun e : list Z * node => path_eqb v (fst e)) (filter (fun e : list Z * node => negb (path_eqb w (fst e))) es) = find (fun e : list Z * node => path_eqb v (fst e)) es).
    { induction es as [|e es IH]; [reflexivity|]. cbn [filter]. destruct (path_eqb w (fst e)) eqn:F; cbn [negb find].
      - apply path_eqb_true in F. rewrite <- F, E. exact IH.
      - destruct (path_eqb v (fst e)); [reflexivity|exact IH]. }
    destruct n as [n|]; cbn [app find fst]; [rewrite E|]; rewrite H; reflexivity.
Qed.
Lemma node_at_app t s l : node_at t (s ++ l) = match node_at t l with Some n => node_at n s | None => None end.
Proof. induction s as [|w s IH]; cbn [app node_at]; [destruct (node_at t l); reflexivity|]. rewrite IH. destruct (node_at t l); reflexivity. Qed.
Lemma node_parent t w l n : node_at t (w :: l) = Some n -> exists pr pw px es, node_at t l = Some (Dir pr pw px es) /\ entry w es = Some n.
Proof. cbn [node_at]. destruct (node_at t l) as [[|pr pw px es]|]; try discriminate. intros H. eauto 8. Qed.
Lemma node_above t s l n : node_at t (s ++ l) = Some n -> exists m, node_at t l = Some m.
Proof. rewrite node_at_app. destruct (node_at t l); [eauto|discriminate]. Qed.

(** there is a directory for an entry at this place *)
Definition room (t : node) (l : place) : Prop := match l with [] => True | _ :: l => exists pr pw px es, node_at t l = Some (Dir pr pw px es) end.
Lemma room_of t l n : node_at t l = Some n -> room t l.
Proof. destruct l as [|w l]; cbn [room]; [auto|]. intros H. apply node_parent in H. destruct H as (pr & pw & px & es & H & _). eauto. Qed.

Lemma put_inside t l n : room t l -> forall s, node_at (put t l (Some n)) (s ++ l) = node_at n s.
Proof.
  revert n. induction l as [|w l IH]; intros n R s.
  - rewrite app_nil_r. reflexivity.
  - destruct R as (pr & pw & px & es & R). cbn [put]. rewrite R.
    replace (s ++ w :: l) with ((s ++ [w]) ++ l) by (rewrite <- app_assoc; reflexivity).
    rewrite IH by exact (room_of _ _ _ R). rewrite node_at_app. cbn [node_at]. rewrite entry_set, path_eqb_refl. reflexivity.
Qed.
Lemma put_none_inside t w l s : (exists pr pw px es, node_at t l = Some (Dir pr pw px es)) -> node_at (put t (w :: l) None) (s ++ w :: l) = None.
Proof.
  intros (pr & pw & px & es & R). cbn [put]. rewrite R.
  replace (s ++ w :: l) with ((s ++ [w]) ++ l) by (rewrite <- app_assoc; reflexivity).
  rewrite put_inside by exact (room_of _ _ _ R). rewrite node_at_app. cbn [node_at]. rewrite entry_set, path_eqb_refl. reflexivity.
Qed.
Lemma within_dec l l' : {s | l' = s ++ l} + {~ within l l'}.
Proof.
  induction l' as [|w l' IH].
  - destruct l as [|x l]; [left; exists []; reflexivity|right]. intros [s E]. destruct s; discriminate.
  - destruct (list_eq_dec (list_eq_dec Z.eq_dec) l (w :: l')) as [->|N]; [left; exists []; reflexivity|].
    destruct IH as [[s ->]|H]; [left; exists (w :: s); reflexivity|right]. intros [s E]. destruct s as [|x s]; [cbn in E; congruence|].
    injection E as -> E. apply H. exists s. exact E.
Qed.
Lemma put_outside t l o l' : ~ within l l' -> thing_at (put t l o) l' = thing_at t l'.
Proof.
  revert o l'. induction l as [|w l IH]; intros o l' N; [elim N; exists l'; rewrite app_nil_r; reflexivity|].
  cbn [put]. destruct (node_at t l) as [[|pr pw px es]|] eqn:R; try reflexivity.
  destruct (within_dec l l') as [[s ->]|H]; [|apply IH; exact H].
  unfold thing_at. rewrite put_inside by exact (room_of _ _ _ R). rewrite node_at_app, R.
  destruct s as [|v s0] using rev_ind; [reflexivity|]. clear IHs0. rewrite !node_at_app. cbn [node_at]. rewrite entry_set.
  destruct (path_eqb v w) eqn:E; [|reflexivity]. apply path_eqb_true in E. subst v. elim N. exists s0. rewrite <- app_assoc. reflexivity.
Qed.
Lemma not_within_below w l : ~ within (w :: l) l.
Proof. intros [s E]. apply (f_equal (@length _)) in E. rewrite app_length in E. cbn [length] in E. lia. Qed.
Lemma thing_node t l : thing_at t l = None <-> node_at t l = None.
Proof. unfold thing_at. destruct (node_at t l) as [[|]|]; split; congruence. Qed.
Lemma put_thing t l n : room t l -> thing_at (put t l (Some n)) l = thing_at n [].
Proof. intros R. unfold thing_at. pose proof (put_inside t l n R []) as H. cbn [app] in H. rewrite H. reflexivity. Qed.

(** ** Growing trees *)
(** everything there is stays, with its permissions *)
Definition extends (t t' : node) : Prop := forall l x, thing_at t l = Some x -> thing_at t' l = Some x.
Lemma extends_refl t : extends t t.
Proof. intros l x H. exact H. Qed.
Lemma extends_trans a b c : extends a b -> extends b c -> extends a c.
Proof. intros H K l x E. apply K, H, E. Qed.
Lemma extends_put t w d n : node_at t (w :: d) = None -> extends t (put t (w :: d) (Some n)).
Proof.
  intros N l x H. destruct (within_dec (w :: d) l) as [[s ->]|W]; [|rewrite put_outside by exact W; exact H].
  exfalso. assert (K : node_at t (s ++ w :: d) <> None) by (intros K; apply thing_node in K; congruence).
  rewrite node_at_app, N in K. congruence.
Qed.

Section R.
  Variable root : bool.
  Notation resolve := (resolve root). Notation make_dir := (make_dir root). Notation make_dirs := (make_dirs root). Notation is_dir := (is_dir root).

  Lemma resolve_app t ps qs : forall cur, resolve t cur (ps ++ qs) = match resolve t cur ps with At l => resolve t l qs | o => o end.
  Proof.
    induction ps as [|w ps IH]; intros cur; [reflexivity|]. cbn [app UnixFs.resolve]. destruct (node_at t cur) as [[|pr pw px es]|]; try reflexivity.
    destruct (root || px); [|reflexivity]. destruct (node_at t (walk cur w)); [apply IH|reflexivity].
  Qed.
  Lemma resolve_walk t ps : forall cur l, resolve t cur ps = At l -> l = fold_left walk ps cur.
  Proof.
    induction ps as [|w ps IH]; intros cur l; [cbn; congruence|]. cbn [UnixFs.resolve fold_left]. destruct (node_at t cur) as [[|pr pw px es]|]; try discriminate.
    destruct (root || px); [|discriminate]. destruct (node_at t (walk cur w)); [apply IH|discriminate].
  Qed.
  Lemma resolve_snoc t cur ps w : resolve t cur (ps ++ [w]) =
    match resolve t cur ps with
    | At l => match node_at t l with
              | Some (Dir _ _ x _) => if root || x then match node_at t (walk l w) with Some _ => At (walk l w) | None => NotExist end else Failed
              | Some File => Failed
              | None => NotExist
              end
    | o => o
    end.
  Proof. rewrite resolve_app. destruct (resolve t cur ps); try reflexivity. Qed.
  Lemma resolve_extends t t' ps : extends t t' -> forall cur, (forall l, resolve t cur ps = At l -> resolve t' cur ps = At l) /\ (resolve t cur ps = Failed -> resolve t' cur ps = Failed).
  Proof.
    intros E. induction ps as [|w ps IH]; intros cur; [split; [cbn; auto|discriminate]|]. cbn [UnixFs.resolve].
    specialize (E cur) as Ec. pose proof (E (walk cur w)) as Ew. unfold thing_at in Ec, Ew.
    destruct (node_at t cur) as [[|pr pw px es]|]; [split; [discriminate|]| |split; discriminate].
    - specialize (Ec _ eq_refl). destruct (node_at t' cur) as [[|pr' pw' px' es']|]; try discriminate. reflexivity.
    - specialize (Ec _ eq_refl). destruct (node_at t' cur) as [[|pr' pw' px' es']|]; try discriminate. injection Ec as -> -> ->.
      destruct (root || px); [|split; [discriminate|reflexivity]].
      destruct (node_at t (walk cur w)) as [[|]|]; [| |split; discriminate].
      + specialize (Ew _ eq_refl). destruct (node_at t' (walk cur w)) as [n'|]; [|discriminate]. apply IH.
      + specialize (Ew _ eq_refl). destruct (node_at t' (walk cur w)) as [n'|]; [|discriminate]. apply IH.
  Qed.
  Lemma resolve_At t t' ps cur l : extends t t' -> resolve t cur ps = At l -> resolve t' cur ps = At l.
  Proof. intros E. apply (resolve_extends t t' ps E cur). Qed.

  (** Mkdir makes at most one empty directory, where there was nothing *)
  Lemma make_dir_ok t from rps t' : make_dir t from rps = (true, t') -> exists w d par pr pw px es,
    rps = w :: par /\ w <> dotdot /\ resolve t from (rev par) = At d /\ node_at t d = Some (Dir pr pw px es) /\ root || (pw && px) = true /\
    node_at t (w :: d) = None /\ t' = put t (w :: d) (Some fresh_dir).
  Proof.
    destruct rps as [|w par]; cbn [UnixFs.make_dir]; [discriminate|]. destruct (path_eqb w dotdot) eqn:D; [discriminate|].
    destruct (resolve t from (rev par)) as [d| |] eqn:R; try discriminate. destruct (node_at t d) as [[|pr pw px es]|] eqn:N; try discriminate.
    destruct (root || pw && px) eqn:P; [|discriminate]. destruct (entry w es) eqn:W; [discriminate|]. intros H. injection H as <-.
    exists w, d, par, pr, pw, px, es. repeat split; auto. { intros ->. rewrite path_eqb_refl in D. discriminate. } { cbn [node_at]. rewrite N. exact W. }
  Qed.
  Lemma make_dir_fail t from rps t' : make_dir t from rps = (false, t') -> t' = t.
  Proof.
    destruct rps as [|w par]; cbn [UnixFs.make_dir]; [congruence|]. destruct (path_eqb w dotdot); [congruence|].
    destruct (resolve t from (rev par)) as [d| |]; try congruence. destruct (node_at t d) as [[|pr pw px es]|]; try congruence.
    destruct (root || pw && px); [|congruence]. destruct (entry w es); congruence.
  Qed.
  Lemma make_dir_extends t from rps : extends t (snd (make_dir t from rps)).
  Proof.
    destruct (make_dir t from rps) as [[] t'] eqn:E; cbn [snd].
    - apply make_dir_ok in E. destruct E as (w & d & par & pr & pw & px & es & -> & _ & _ & _ & _ & N & ->). apply extends_put. exact N.
    - apply make_dir_fail in E. subst. apply extends_refl.
  Qed.
  Lemma make_dirs_extends t from rps : extends t (snd (make_dirs t from rps)).
  Proof.
    induction rps as [|w par IH]; cbn [UnixFs.make_dirs].
    - destruct (is_dir t from []) as [[]|]; apply extends_refl.
    - destruct (is_dir t from (w :: par)) as [b|]; [apply extends_refl|]. destruct (make_dirs t from par) as [ok t1]; cbn [snd] in IH.
      destruct ok; cbn [negb]; [|exact IH]. pose proof (make_dir_extends t1 from (w :: par)) as M.
      destruct (make_dir t1 from (w :: par)) as [[] t2]; cbn [snd] in M |- *; exact (extends_trans _ _ _ IH M).
  Qed.
  Lemma create_extends cwd t p : extends t (snd (create_file root cwd t p)).
  Proof.
    unfold create_file. destruct (list_eq_dec Z.eq_dec (last (parts p) []) []); [apply extends_refl|].
    destruct (list_eq_dec Z.eq_dec (last (parts p) []) dot); [apply extends_refl|]. destruct (list_eq_dec Z.eq_dec (last (parts p) []) dotdot); [apply extends_refl|].
    destruct (UnixFs.resolve root t (start cwd p) (removelast (steps p))) as [d| |]; try apply extends_refl.
    destruct (node_at t d) as [[|pr pw px es]|] eqn:N; try apply extends_refl. destruct (negb (root || px)); [apply extends_refl|].
    destruct (entry (last (parts p) []) es) as [[|]|] eqn:W; try apply extends_refl. destruct (root || pw); [|apply extends_refl].
    apply extends_put. cbn [node_at]. rewrite N. exact W.
  Qed.
End R.

(** ** Cleaned paths *)
Lemma steps_names ws : Forall okname ws -> filter (fun w => if list_eq_dec Z.eq_dec w [] then false else if list_eq_dec Z.eq_dec w dot then false else true) ws = ws.
Proof.
  induction 1 as [|w ws [(A & B & C) _] _ IH]; [reflexivity|]. cbn [filter]. destruct (list_eq_dec Z.eq_dec w []); [congruence|].
  destruct (list_eq_dec Z.eq_dec w dot); [congruence|]. rewrite IH. reflexivity.
Qed.
