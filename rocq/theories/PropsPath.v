(** Property C99: path names of generated directories. *)
From Coq Require Import ZArith List Bool Lia.
From Verif Require Import Base Code Path PathSpec PathProofs CodeSpec PropsCode.
Import ListNotations.
Open Scope Z_scope.

(** ** Where normal forms lead *)
Lemma skipn_tl {A} k (l : list A) : tl (skipn k l) = skipn (S k) l.
Proof. revert l. induction k as [|k IH]; intros [|x l]; try reflexivity. cbn [skipn]. rewrite IH. destruct l; reflexivity. Qed.
Lemma walk_relative cwd ws : forall k ns, fold_left walk ws (ns ++ skipn k cwd) =
  snd (fold_left (norm_step false) ws (k, ns)) ++ skipn (fst (fold_left (norm_step false) ws (k, ns))) cwd.
Proof.
  induction ws as [|w ws IH]; intros k ns; [reflexivity|]. cbn [fold_left]. unfold walk at 2. unfold norm_step at 2 4.
  destruct (list_eq_dec Z.eq_dec w []); [apply IH|]. destruct (list_eq_dec Z.eq_dec w dot); [apply IH|]. destruct (list_eq_dec Z.eq_dec w dotdot).
  - destruct ns as [|x ns]; cbn [app tl]; [rewrite skipn_tl; exact (IH (S k) [])|apply IH].
  - exact (IH k (w :: ns)).
Qed.
Lemma walk_rooted ws : forall k ns, fold_left walk ws ns = snd (fold_left (norm_step true) ws (k, ns)).
Proof.
  induction ws as [|w ws IH]; intros k ns; [reflexivity|]. cbn [fold_left]. unfold walk at 2. unfold norm_step at 2.
  destruct (list_eq_dec Z.eq_dec w []); [apply IH|]. destruct (list_eq_dec Z.eq_dec w dot); [apply IH|]. destruct (list_eq_dec Z.eq_dec w dotdot).
  - destruct ns as [|x ns]; cbn [tl]; apply IH.
  - apply IH.
Qed.
Definition goes (cwd : place) (rt : bool) (l : loc) : place := if rt then snd l else snd l ++ skipn (fst l) cwd.
Lemma leads_norm cwd p : leads cwd p = goes cwd (rooted p) (norm p).
Proof.
  unfold leads, goes, norm. destruct (rooted p); [apply walk_rooted|]. exact (walk_relative cwd (parts p) 0%nat []).
Qed.

(** ** The text of a normal form *)
Lemma norm_down ns : Forall okname ns -> forall rt k ms, fold_left (norm_step rt) ns (k, ms) = (k, rev ns ++ ms).
Proof.
  induction 1 as [|w ns [(N1 & N2 & N3) _] _ IH]; intros rt k ms; [reflexivity|]. cbn [fold_left]. unfold norm_step at 2.
  destruct (list_eq_dec Z.eq_dec w []); [congruence|]. destruct (list_eq_dec Z.eq_dec w dot); [congruence|]. destruct (list_eq_dec Z.eq_dec w dotdot); [congruence|].
  rewrite IH. cbn [rev]. rewrite <- app_assoc. reflexivity.
Qed.
Lemma norm_ups k : forall j, fold_left (norm_step false) (repeat dotdot k) (j, []) = ((k + j)%nat, []).
Proof. induction k as [|k IH]; intros j; [reflexivity|]. cbn [repeat fold_left]. change (norm_step false (j, []) dotdot) with (S j, @nil (list Z)). rewrite IH. f_equal. lia. Qed.
Lemma parts_rooted r : parts (47 :: r) = [] :: parts r.
Proof. reflexivity. Qed.
Lemma noslash_parts k ns : Forall okname ns -> Forall noslash (repeat dotdot k ++ rev ns).
Proof.
  intros F. apply Forall_app. split; [induction k; constructor; auto; repeat constructor; discriminate|].
  apply Forall_forall. intros x I. apply in_rev in I. apply (proj1 (Forall_forall _ _) F) in I. apply I.
Qed.
Lemma join_first w ws : join (w :: ws) = w ++ match ws with [] => [] | _ => 47 :: join ws end.
Proof. destruct ws; [symmetry; apply app_nil_r|reflexivity]. Qed.
(** a text of parts that does not start with a slash *)
Lemma rooted_join ws w ws' : ws = w :: ws' -> w <> [] -> noslash w -> rooted (join ws) = false.
Proof. intros -> N H. rewrite join_first. destruct w as [|c w]; [congruence|]. inversion H; subst. cbn. apply Z.eqb_neq. assumption. Qed.
Lemma first_up k ns : Forall okname ns -> forall w ws, repeat dotdot k ++ rev ns = w :: ws -> w <> [] /\ noslash w.
Proof.
  intros F w ws E. destruct k as [|k]; cbn [repeat app] in E.
  - assert (I : In w ns) by (apply in_rev; rewrite E; left; reflexivity). apply (proj1 (Forall_forall _ _) F) in I. destruct I as [[I _] J]. auto.
  - injection E as <- _. split; [discriminate|repeat constructor; discriminate].
Qed.
Lemma text_rooted rt l : okloc rt l -> rooted (text_of rt l) = rt.
Proof.
  destruct l as [k ns]. intros [Hk F]. cbn [fst snd] in *. unfold text_of, body. cbn [fst snd]. destruct rt; [reflexivity|]. cbn [app].
  destruct (repeat dotdot k ++ rev ns) as [|w ws] eqn:E; [reflexivity|]. destruct (first_up k ns F w ws E) as [N H].
  pose proof (rooted_join (w :: ws) w ws eq_refl N H) as R. destruct (join (w :: ws)); [reflexivity|exact R].
Qed.
Lemma text_parts rt k ns : okloc rt (k, ns) ->
  parts (text_of rt (k, ns)) = if rt then [] :: (match ns with [] => [[]] | _ => rev ns end) else match k, ns with O, [] => [dot] | _, _ => repeat dotdot k ++ rev ns end.
Proof.
  intros [Hk F]. cbn [fst snd] in *. unfold text_of, body. cbn [fst snd]. destruct rt.
  - rewrite (Hk eq_refl). cbn [repeat app]. rewrite parts_rooted. f_equal. destruct ns as [|n ns]; [reflexivity|].
    apply parts_join; [|apply (noslash_parts 0 (n :: ns) F)]. cbn. destruct (rev ns); discriminate.
  - cbn [app]. destruct (repeat dotdot k ++ rev ns) as [|w ws] eqn:E.
    + apply app_eq_nil in E. destruct E as [E1 E2]. destruct k; [|discriminate]. destruct ns; [reflexivity|apply app_eq_nil in E2; destruct E2; discriminate].
    + pose proof (noslash_parts k ns F) as Fn. rewrite E in Fn. pose proof (parts_join (w :: ws) ltac:(discriminate) Fn) as P.
      replace (match k with 0%nat => match ns with [] => [dot] | _ :: _ => w :: ws end | S _ => w :: ws end) with (w :: ws)
        by (destruct k; [destruct ns; [discriminate E|]|]; reflexivity).
      destruct (first_up k ns F w ws E) as [N _]. rewrite join_first in P |- *. destruct w; [congruence|]. exact P.
Qed.
Lemma norm_text rt l : okloc rt l -> norm (text_of rt l) = l.
Proof.
  intros Ok. unfold norm. rewrite (text_rooted rt l Ok). destruct l as [k ns]. rewrite (text_parts rt k ns Ok). destruct Ok as [Hk F]. cbn [fst snd] in *.
  assert (Fr : Forall okname (rev ns)) by (apply Forall_forall; intros x I; apply in_rev in I; exact (proj1 (Forall_forall _ _) F x I)).
  destruct rt.
  - rewrite (Hk eq_refl). cbn [fold_left]. change (norm_step true (0%nat, []) []) with (0%nat, @nil (list Z)). destruct ns as [|n ns]; [reflexivity|].
    rewrite (norm_down _ Fr), rev_involutive, app_nil_r. reflexivity.
  - replace (match k with 0%nat => match ns with [] => [dot] | _ :: _ => repeat dotdot k ++ rev ns end | S _ => repeat dotdot k ++ rev ns end)
      with (match k, ns with 0%nat, [] => [dot] | _, _ => repeat dotdot k ++ rev ns end) by (destruct k; reflexivity).
    destruct k as [|k]; [destruct ns as [|n ns]; [reflexivity|]|].
    + cbn [repeat app]. rewrite (norm_down _ Fr), rev_involutive, app_nil_r. reflexivity.
    + rewrite fold_left_app, norm_ups, (norm_down _ Fr), rev_involutive, app_nil_r. f_equal. lia.
Qed.

(** ** C99. path.Clean: the cleaned path leads to the same place, from every current directory ... *)
Theorem C99_same_place cwd p : p <> [] -> leads cwd (clean p) = leads cwd p.
Proof.
  intros Ne. rewrite (clean_norm p Ne), !leads_norm, (text_rooted _ _ (norm_ok p)), (norm_text _ _ (norm_ok p)). reflexivity.
Qed.
Print Assumptions C99_same_place.
(** (the empty path is cleaned to a dot) *)
Theorem C99_empty : clean [] = dot.
Proof. reflexivity. Qed.

(** a name that is none of some *)
Lemma fresh (ns : list (list Z)) : exists f, ~ In f ns.
Proof.
  exists (repeat 65 (S (fold_right Nat.max 0%nat (map (@length Z) ns)))). intros I.
  assert (B : forall w, In w ns -> (length w <= fold_right Nat.max 0 (map (@length Z) ns))%nat).
  { clear I. induction ns as [|n ns IH]; intros w I; [destruct I|]. destruct I as [<-|I]; cbn; [lia|]. specialize (IH w I). lia. }
  specialize (B _ I). rewrite repeat_length in B. lia.
Qed.
Lemma count_skipn f n k : count_occ (list_eq_dec Z.eq_dec) (skipn k (repeat f n)) f = (n - k)%nat.
Proof.
  revert k. induction n as [|n IH]; intros [|k]; cbn; try reflexivity.
  - destruct (list_eq_dec Z.eq_dec f f); [|congruence]. f_equal. specialize (IH 0%nat). cbn in IH. rewrite Nat.sub_0_r in IH. exact IH.
  - apply IH.
Qed.
Lemma goes_inj rt l rt' l' : okloc rt l -> okloc rt' l' -> (forall cwd, goes cwd rt l = goes cwd rt' l') -> rt = rt' /\ l = l'.
Proof.
  intros Ok Ok' H. destruct l as [k ns], l' as [k' ns']. destruct (fresh (ns ++ ns')) as (f & Nf).
  assert (C0 : forall ns0 : list (list Z), (forall x, In x ns0 -> In x (ns ++ ns')) -> count_occ (list_eq_dec Z.eq_dec) ns0 f = 0%nat).
  { intros ns0 I. apply count_occ_not_In. intros J. apply Nf, I, J. }
  pose proof (C0 ns ltac:(intros; apply in_or_app; auto)) as Z1. pose proof (C0 ns' ltac:(intros; apply in_or_app; auto)) as Z2.
  pose proof (H (repeat f (S (k + k')))) as E. apply (f_equal (fun x => count_occ (list_eq_dec Z.eq_dec) x f)) in E.
  unfold goes in *. cbn [fst snd] in *. destruct rt, rt'; rewrite ?count_occ_app, ?count_skipn, ?Z1, ?Z2 in E; try lia.
  - split; [reflexivity|]. rewrite (proj1 Ok eq_refl : k = _), (proj1 Ok' eq_refl : k' = _). f_equal. exact (H []).
  - split; [reflexivity|]. assert (k = k') by lia. subst k'. f_equal. specialize (H []). rewrite skipn_nil, !app_nil_r in H. exact H.
Qed.
(** ... it is the same for two paths exactly when they always lead to the same place ... *)
Theorem C99_canonical p q : p <> [] -> q <> [] -> (clean p = clean q <-> forall cwd, leads cwd p = leads cwd q).
Proof.
  intros Hp Hq. split.
  - intros E cwd. rewrite <- (C99_same_place cwd p Hp), <- (C99_same_place cwd q Hq), E. reflexivity.
  - intros H. rewrite (clean_norm p Hp), (clean_norm q Hq).
    destruct (goes_inj _ _ _ _ (norm_ok p) (norm_ok q)) as [E1 E2]; [intros cwd; rewrite <- !leads_norm; apply H|]. rewrite E1, E2. reflexivity.
Qed.
Print Assumptions C99_canonical.
Lemma clean_nonempty p : clean p <> [].
Proof.
  destruct p as [|c p]; [discriminate|]. rewrite clean_norm by discriminate. unfold text_of. destruct (body _ _); discriminate.
Qed.
Theorem C99_idempotent p : clean (clean p) = clean p.
Proof.
  destruct p as [|c p]; [reflexivity|]. apply C99_canonical; [apply clean_nonempty|discriminate|]. intros cwd. apply C99_same_place. discriminate.
Qed.
(** ... and no path that always leads there is shorter. *)
Fixpoint width (ws : list (list Z)) : nat := match ws with [] => 0 | w :: ws => S (length w) + width ws end.
Definition cost (l : loc) : nat := (3 * fst l + width (snd l))%nat.
Lemma width_app a b : width (a ++ b) = (width a + width b)%nat.
Proof. induction a as [|x a IH]; cbn; [reflexivity|]. rewrite IH. lia. Qed.
Lemma width_rev a : width (rev a) = width a.
Proof. induction a as [|x a IH]; cbn; [reflexivity|]. rewrite width_app, IH. cbn. lia. Qed.
Lemma width_join ws : ws <> [] -> S (length (join ws)) = width ws.
Proof.
  induction ws as [|w ws IH]; intros N; [congruence|]. rewrite join_first. destruct ws as [|x xs]; [cbn; rewrite app_nil_r; lia|].
  rewrite app_length. cbn [length]. rewrite IH by discriminate. cbn. lia.
Qed.
Lemma cost_step rt l w : (cost (norm_step rt l w) <= cost l + (match w with [] => 0 | _ => S (length w) end))%nat.
Proof.
  destruct l as [k ns]. unfold norm_step, cost. destruct (list_eq_dec Z.eq_dec w []); [cbn; lia|]. destruct (list_eq_dec Z.eq_dec w dot); [cbn; lia|].
  destruct (list_eq_dec Z.eq_dec w dotdot) as [->|N]; [destruct ns; [destruct rt|]; cbn; lia|]. destruct w; [congruence|cbn; lia].
Qed.
Lemma cost_norm rt ws : forall l, (cost (fold_left (norm_step rt) ws l) <= cost l + width ws)%nat.
Proof.
  induction ws as [|w ws IH]; intros l; cbn [fold_left width]; [lia|]. pose proof (IH (norm_step rt l w)). pose proof (cost_step rt l w). destruct w; cbn [length] in *; lia.
Qed.
Lemma clean_length p : p <> [] -> (length (clean p) <= length p)%nat.
Proof.
  intros Ne. rewrite (clean_norm p Ne). assert (L1 : (1 <= length p)%nat) by (destruct p; [congruence|cbn; lia]).
  assert (Cb : forall rt k ns, okloc rt (k, ns) -> (length (text_of rt (k, ns)) <= Nat.max 1 (cost (k, ns) - (if rt then 0 else 1)))%nat).
  { intros rt k ns [Hk _]. cbn [fst] in Hk. unfold text_of, body, cost. cbn [fst snd]. destruct (repeat dotdot k ++ rev ns) as [|w ws] eqn:E.
    - destruct rt; cbn [app join length dot]; lia.
    - pose proof (width_join (w :: ws) ltac:(discriminate)) as W. rewrite <- E in W. rewrite width_app, width_rev in W.
      assert (Wk : width (repeat dotdot k) = (3 * k)%nat) by (clear; induction k; [reflexivity|]; cbn [repeat width]; rewrite IHk; cbn; lia).
      rewrite E in W. destruct rt; [cbn [app length]; lia|]. cbn [app]. destruct (join (w :: ws)) eqn:J; [cbn [length dot]; lia|]. cbn [length] in *. lia. }
  pose proof (Cb (rooted p) (fst (norm p)) (snd (norm p))) as C. rewrite <- surjective_pairing in C. specialize (C (norm_ok p)).
  assert (W : S (length p) = width (parts p)) by (rewrite <- (width_join (parts p) (parts_nonempty p)), join_parts; reflexivity).
  destruct p as [|c r]; [congruence|]. unfold norm in C |- *. cbn [rooted] in *. destruct (Z.eqb_spec c 47) as [->|N].
  - rewrite parts_rooted in *. cbn [fold_left] in *. change (norm_step true (0%nat, []) []) with (0%nat, @nil (list Z)) in *.
    pose proof (cost_norm true (parts r) (0%nat, [])) as Cn. change (cost (0%nat, [])) with 0%nat in Cn. cbn [width] in W. cbn [length] in *. lia.
  - pose proof (cost_norm false (parts (c :: r)) (0%nat, [])) as Cn. change (cost (0%nat, [])) with 0%nat in Cn. lia.
Qed.
Theorem C99_shortest p q : p <> [] -> q <> [] -> (forall cwd, leads cwd p = leads cwd q) -> (length (clean p) <= length q)%nat.
Proof. intros Hp Hq H. rewrite (proj2 (C99_canonical p q Hp Hq) H). apply clean_length, Hq. Qed.
Print Assumptions C99_shortest.
(** Its parts are names, except for double dots at the start of a relative path. *)
Theorem C99_tidy p : tidy (clean p).
Proof.
  destruct p as [|c p]; [constructor|]. rewrite clean_norm by discriminate. pose proof (norm_ok (c :: p)) as Ok. pose proof (text_rooted _ _ Ok) as R.
  destruct (norm (c :: p)) as [k ns]. pose proof (text_parts _ _ _ Ok) as P. destruct Ok as [Hk F]. cbn [fst snd] in *.
  assert (Fr : Forall name (rev ns)) by (apply Forall_forall; intros x I; apply in_rev in I; exact (proj1 (proj1 (Forall_forall _ _) F x I))).
  destruct (rooted (c :: p)).
  - destruct ns as [|n ns]; [rewrite (Hk eq_refl); apply tidy_root|]. eapply tidy_rooted; [exact R|exact P| |exact Fr]. cbn. destruct (rev ns); discriminate.
  - destruct k as [|k]; [destruct ns as [|n ns]; [apply tidy_here|]|]; eapply tidy_relative; eauto.
Qed.
Example C99_nonvacuous :
  clean [97; 47; 46; 46; 47; 46; 46; 47; 98; 47; 47; 46; 47; 99; 47] = [46; 46; 47; 98; 47; 99] /\ clean [47; 46; 46; 47; 97] = [47; 97] /\
  leads [[120]; [121]] [97; 47; 46; 46; 47; 46; 46; 47; 98; 47; 47; 46; 47; 99; 47] = [[99]; [98]; [121]].
Proof. repeat split. Qed.

(** ** The directories of a BaseGenerator *)
Lemma parts_concat b n : parts (b ++ 47 :: n) = parts b ++ parts n.
Proof.
  induction b as [|c b IH]; [reflexivity|]. cbn [app parts]. destruct (c =? 47); [rewrite IH; reflexivity|]. rewrite IH.
  destruct (parts b) eqn:E; [destruct (parts_nonempty _ E)|reflexivity].
Qed.
Lemma leads_concat cwd b n : b <> [] -> leads cwd (b ++ 47 :: n) = fold_left walk (parts n) (leads cwd b).
Proof.
  intros N. unfold leads. rewrite parts_concat, fold_left_app. destruct b; [congruence|reflexivity].
Qed.
Lemma walk_within top n : Forall (fun w => w <> dotdot) (parts n) -> within top (fold_left walk (parts n) top).
Proof.
  intros F. assert (G : forall ws from, Forall (fun w => w <> dotdot) ws -> within top from -> within top (fold_left walk ws from)).
  { induction ws as [|w ws IH]; intros from Fw W; [exact W|]. inversion Fw; subst. cbn [fold_left]. apply IH; [assumption|]. unfold walk.
    destruct (list_eq_dec Z.eq_dec w []); [exact W|]. destruct (list_eq_dec Z.eq_dec w dot); [exact W|]. destruct (list_eq_dec Z.eq_dec w dotdot); [congruence|].
    destruct W as [ns ->]. exists (w :: ns). reflexivity. }
  apply G; [exact F|exists []; reflexivity].
Qed.
(** Dir creates the directory a name leads to from the base path (with everything above it); for a name without double dots that is the
    base directory or one below it. *)
Theorem C99_dir {F} (fs : filesys F) cs f n b cwd : hd_error (base_calls cs) = Some b -> b <> [] -> exists p,
  (let w := snd (do_calls fs clean cs (new_generator, f)) in snd (snd (dir fs clean (fst w) (snd w) n)) = snd (mkdir_all fs (snd w) p)) /\
  leads cwd p = fold_left walk (parts n) (leads cwd b) /\ (Forall (fun w => w <> dotdot) (parts n) -> within (leads cwd b) (leads cwd p)).
Proof.
  intros E Nb. exists (clean (b ++ slash :: n)). split; [apply (C87_dir_always_panics_refuted fs clean cs f n), E|].
  assert (L : leads cwd (clean (b ++ slash :: n)) = fold_left walk (parts n) (leads cwd b)).
  { rewrite C99_same_place by (destruct b; discriminate). apply leads_concat, Nb. }
  split; [exact L|]. rewrite L. apply walk_within.
Qed.
Print Assumptions C99_dir.
(** Finding: a name that starts with double dots leaves the base directory ... *)
Theorem C99_dir_escapes_refuted {F} (fs : filesys F) cs f b w top d cwd : hd_error (base_calls cs) = Some b -> b <> [] -> name w -> Forall (fun c => c <> 47) w ->
  leads cwd b = d :: top -> d <> w -> exists p,
  (let s := snd (do_calls fs clean cs (new_generator, f)) in snd (snd (dir fs clean (fst s) (snd s) (dotdot ++ slash :: w))) = snd (mkdir_all fs (snd s) p)) /\
  leads cwd p = w :: top /\ ~ within (leads cwd b) (leads cwd p).
Proof.
  intros E Nb (N1 & N2 & N3) Hw T Nd. destruct (C99_dir fs cs f (dotdot ++ slash :: w) b cwd E Nb) as (p & A & B & _). exists p. split; [exact A|].
  assert (P : leads cwd p = w :: top).
  { rewrite B, T. change (dotdot ++ slash :: w) with (dotdot ++ 47 :: w). rewrite parts_slash by (repeat constructor; discriminate).
    rewrite (parts_one w Hw). cbn [fold_left]. unfold walk. cbn [tl].
    destruct (list_eq_dec Z.eq_dec w []); [congruence|]. destruct (list_eq_dec Z.eq_dec w dot); [congruence|]. destruct (list_eq_dec Z.eq_dec w dotdot); [congruence|reflexivity]. }
  split; [exact P|]. rewrite P, T. intros [ns H]. destruct ns as [|x ns]; cbn [app] in H; [congruence|]. injection H as _ H.
  apply (f_equal (@length _)) in H. rewrite app_length in H. cbn in H. lia.
Qed.
(** ... and with an empty base path the directories are created in the root directory, though SetBasePath has taken the current one. *)
Theorem C99_empty_base_refuted {F} (fs : filesys F) cs f n cwd : hd_error (base_calls cs) = Some [] -> exists p,
  (let w := snd (do_calls fs clean cs (new_generator, f)) in snd (snd (dir fs clean (fst w) (snd w) n)) = snd (mkdir_all fs (snd w) p)) /\
  leads cwd p = fold_left walk (parts n) [] /\ leads cwd (clean []) = cwd.
Proof.
  intros E. exists (clean ([] ++ slash :: n)). split; [apply (C87_dir_always_panics_refuted fs clean cs f n), E|]. cbn [app]. split; [|reflexivity].
  rewrite C99_same_place by discriminate. reflexivity.
Qed.
Example C99_dir_ex : let fs := FileSys (fun _ _ => RdOk) (fun l p => (true, l ++ [p])) (fun l p => (true, l ++ [p])) (fun l p => (true, l)) (fun l p => (true, l)) in
  let w := snd (do_calls fs clean [CallBase [103; 47]] (new_generator, [])) in
  snd (snd (dir fs clean (fst w) (snd w) [46; 46; 47; 120])) = [[103]; [120]].
Proof. reflexivity. Qed.
