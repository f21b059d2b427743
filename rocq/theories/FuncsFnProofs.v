From Coq Require Import Floats.SpecFloat.
From Verif Require Import Base Slice FuncsFn FuncsFnSpec.
Open Scope nat_scope.

Section Filters.
  Context {T W : Type}.

  Lemma and_loop_pure (ps : list (T -> bool)) r t (w : W) : and_loop (map pure ps) r t w = (match ps with [] => r | _ => forallb (fun p => p t) ps end, w).
  Proof.
    revert r. induction ps as [|p ps IH]; intros r; simpl; auto. destruct (p t); simpl; auto.
    rewrite IH. destruct ps; reflexivity.
  Qed.
  Lemma or_loop_pure (ps : list (T -> bool)) r t (w : W) : or_loop (map pure ps) r t w = (match ps with [] => r | _ => existsb (fun p => p t) ps end, w).
  Proof.
    revert r. induction ps as [|p ps IH]; intros r; simpl; auto. destruct (p t); simpl; auto.
    rewrite IH. destruct ps; reflexivity.
  Qed.

  Lemma and_short (a : list (T -> W -> bool * W)) f b t (w w' : W) r : all_return true a t w w' -> fst (f t w') = false ->
    and_loop (a ++ f :: b) r t w = (false, snd (f t w')).
  Proof.
    revert r w. induction a as [|g a IH]; intros r w; simpl.
    - intros <-. destruct (f t w) as [b' w'']. simpl. intros ->. reflexivity.
    - destruct (g t w) as [b' w'']. simpl. intros [-> H] F. simpl. apply IH; auto.
  Qed.
  Lemma or_short (a : list (T -> W -> bool * W)) f b t (w w' : W) r : all_return false a t w w' -> fst (f t w') = true ->
    or_loop (a ++ f :: b) r t w = (true, snd (f t w')).
  Proof.
    revert r w. induction a as [|g a IH]; intros r w; simpl.
    - intros <-. destruct (f t w) as [b' w'']. simpl. intros ->. reflexivity.
    - destruct (g t w) as [b' w'']. simpl. intros [-> H] F. simpl. apply IH; auto.
  Qed.
  Lemma all_return_and (a : list (T -> W -> bool * W)) t (w w' : W) r : all_return true a t w w' -> and_loop a r t w = (match a with [] => r | _ => true end, w').
  Proof.
    revert r w. induction a as [|g a IH]; intros r w; simpl.
    - intros <-. reflexivity.
    - destruct (g t w) as [b' w'']. simpl. intros [-> H]. simpl. rewrite (IH true _ H). destruct a; reflexivity.
  Qed.
End Filters.

Lemma in_loop_In (vals : list Z) t : in_loop ord_int vals t = true <-> In t vals.
Proof.
  induction vals as [|v vals IH]; simpl; [split; [discriminate|tauto]|].
  destruct (Z.eqb_spec t v) as [->|N]; [split; auto|]. rewrite IH. split; [auto|]. intros [E|I]; [congruence|auto].
Qed.

(** strings *)
Lemma str_cmp_eq a b : str_cmp a b = Eq <-> a = b.
Proof.
  revert b. induction a as [|x a IH]; intros [|y b]; simpl; try (split; [discriminate|discriminate]); [tauto|].
  destruct (Z.compare_spec x y) as [->|H|H].
  - rewrite IH. split; congruence.
  - split; [discriminate|]. intros E; inversion E; lia.
  - split; [discriminate|]. intros E; inversion E; lia.
Qed.
Lemma str_cmp_anti a b : str_cmp b a = CompOpp (str_cmp a b).
Proof.
  revert b. induction a as [|x a IH]; intros [|y b]; simpl; auto.
  rewrite (Z.compare_antisym x y). destruct (Z.compare x y); simpl; auto.
Qed.
Lemma str_cmp_trans a b c : str_cmp a b = Lt -> str_cmp b c = Lt -> str_cmp a c = Lt.
Proof.
  revert b c. induction a as [|x a IH]; intros [|y b] [|z c]; simpl; try discriminate; auto.
  destruct (Z.compare_spec x y) as [H1|H1|H1], (Z.compare_spec y z) as [H2|H2|H2]; try discriminate; intros A B;
    try (destruct (Z.compare_spec x z); [lia|reflexivity|lia]).
  subst. rewrite Z.compare_refl. eauto.
Qed.

(** TryTo *)
Section TryTo.
  Context {W V : Type}.
  Lemma push_defers_rev (cs st : list (@thunk W V)) : push_defers cs st = rev cs ++ st.
  Proof. revert st. induction cs as [|c cs IH]; intros st; simpl; auto. rewrite IH, <- app_assoc. reflexivity. Qed.

  Lemma last_opt_snoc {A} (l : list A) x : last_opt (l ++ [x]) = Some x.
  Proof. unfold last_opt. rewrite rev_app_distr. reflexivity. Qed.
  Lemma last_opt_app {A} (a b : list A) : last_opt (a ++ b) = match last_opt b with Some x => Some x | None => last_opt a end.
  Proof. unfold last_opt. rewrite rev_app_distr. destruct (rev b); reflexivity. Qed.

  Lemma run_defers_spec (ts : list (@thunk W V)) w p :
    run_defers ts w p = (world_after ts w, match last_opt (panics ts w) with Some v => Some v | None => p end).
  Proof.
    revert w p. induction ts as [|t ts IH]; intros w p; simpl; auto. destruct (t w) as [w' q] eqn:E. cbn [fst snd].
    rewrite IH. rewrite last_opt_app. unfold world_after. destruct (last_opt (panics ts w')); auto. destruct q; reflexivity.
  Qed.

  Lemma world_after_app (a b : list (@thunk W V)) w : world_after (a ++ b) w = world_after b (world_after a w).
  Proof. unfold world_after. apply fold_left_app. Qed.
  Lemma panics_app (a b : list (@thunk W V)) w : panics (a ++ b) w = panics a w ++ panics b (world_after a w).
  Proof.
    revert w. induction a as [|t a IH]; intros w; simpl; auto. rewrite IH, <- app_assoc. reflexivity.
  Qed.
End TryTo.

Section Logged.
  Context {W V : Type}.
  Lemma logged_run (e : event V) (f : @thunk W V) lg w : logged e f (lg, w) = ((lg ++ [e], fst (f w)), snd (f w)).
  Proof. unfold logged. cbn [fst snd]. destruct (f w). reflexivity. Qed.

  Lemma logged_closers_spec (cs : list (@thunk W V)) : forall i lg w,
    world_after (rev (logged_closers i cs)) (lg, w) = (lg ++ map ECloser (rev (seq i (length cs))), world_after (rev cs) w) /\
    panics (rev (logged_closers i cs)) (lg, w) = panics (rev cs) w.
  Proof.
    induction cs as [|c cs IH]; intros i lg w; cbn [logged_closers rev length seq].
    - cbn [map]. rewrite app_nil_r. auto.
    - destruct (IH (S i) lg w) as (A & B). rewrite !world_after_app, !panics_app, A, B. cbn [world_after fold_left panics].
      rewrite logged_run. cbn [fst snd]. split; [|reflexivity]. rewrite map_app, app_assoc. reflexivity.
  Qed.
End Logged.

(** SupplierCached *)
Section Supplier.
  Context {T : Type} {ZT : Zero T}.

  Lemma cached_done {W} {V} (sup : @supplier T W V) n v w :
    cached_calls sup n (Cache true v) w = ((Cache true v, w), repeat (inl v) n).
  Proof. induction n as [|n IH]; simpl; auto. rewrite IH. reflexivity. Qed.

  Lemma counting_calls (k : nat) (f : nat -> T) : forall n i c, i <= k -> isCached c = false ->
    cached_calls (counting k f) n c i =
      if n <=? k - i then ((c, i + n), repeat (inr (PVal 0%Z)) n)
      else ((Cache true (f k), S k), repeat (inr (PVal 0%Z)) (k - i) ++ repeat (inl (f k)) (n - (k - i))).
  Proof.
    induction n as [|n IH]; intros i c Hi Hc; cbn [cached_calls].
    - simpl. rewrite Nat.add_0_r. reflexivity.
    - unfold cached_call. rewrite Hc. cbn [negb]. unfold counting at 1. destruct (Nat.ltb_spec i k) as [L|L].
      + rewrite IH by (auto; lia). replace (S n <=? k - i) with (n <=? k - S i).
        2: { destruct (Nat.leb_spec n (k - S i)), (Nat.leb_spec (S n) (k - i)); auto; lia. }
        destruct (n <=? k - S i); [rewrite Nat.add_succ_r; reflexivity|].
        replace (k - i) with (S (k - S i)) by lia. simpl. reflexivity.
      + assert (i = k) by lia. subst i. rewrite Nat.sub_diag. cbn [Nat.leb repeat app]. rewrite cached_done. rewrite Nat.sub_0_r. reflexivity.
  Qed.
End Supplier.

(** conversions *)
Lemma type_assert_has t v : has_type t v -> type_assert t v = Some v.
Proof.
  destruct t as [id| |kid|bare impl]; simpl.
  - intros (x & ->). simpl. rewrite Nat.eqb_refl. reflexivity.
  - intros (l & ->). reflexivity.
  - intros (e & ->). simpl. rewrite Nat.eqb_refl. reflexivity.
  - intros (N & H). destruct v as [|id x|l|k e]; [destruct (N eq_refl)| | |]; simpl.
    + destruct H as [->|(id' & x' & E & I)]; [reflexivity|]. injection E as -> ->. rewrite I, orb_true_r. reflexivity.
    + destruct H as [->|(id' & x' & E & _)]; [reflexivity|discriminate].
    + destruct H as [->|(id' & x' & E & _)]; [reflexivity|discriminate].
Qed.
Lemma type_assert_not t v : ~ has_type t v -> type_assert t v = None.
Proof.
  intros N. destruct t as [id| |kid|bare impl], v as [|id' x|l|k e]; simpl in *; try reflexivity.
  - destruct (Nat.eqb_spec id' id) as [->|]; [destruct N; eauto|reflexivity].
  - destruct N; eauto.
  - destruct (Nat.eqb_spec k kid) as [->|]; [destruct N; eauto|reflexivity].
  - destruct (bare || impl id') eqn:B; [|reflexivity]. destruct N. split; [discriminate|]. apply orb_prop in B. destruct B; eauto.
  - destruct bare; [|reflexivity]. destruct N. split; [discriminate|auto].
  - destruct bare; [|reflexivity]. destruct N. split; [discriminate|auto].
Qed.
Lemma has_type_dec t v : has_type t v \/ ~ has_type t v.
Proof.
  destruct (type_assert t v) eqn:E.
  - left. destruct t as [id| |kid|bare impl], v as [|id' x|l|k e]; simpl in *; try discriminate; eauto.
    + destruct (Nat.eqb_spec id' id) as [->|]; [eauto|discriminate].
    + destruct (Nat.eqb_spec k kid) as [->|]; [eauto|discriminate].
    + destruct (bare || impl id') eqn:B; [|discriminate]. split; [discriminate|]. apply orb_prop in B. destruct B; eauto.
    + destruct bare; [|discriminate]. split; [discriminate|auto].
    + destruct bare; [|discriminate]. split; [discriminate|auto].
  - right. intros H. apply type_assert_has in H. congruence.
Qed.
Lemma convert_loop_ok t z : forall slc pre, Forall (has_type t) slc ->
  convert_loop t (length pre) slc (pre ++ repeat z (length slc)) = inl (pre ++ slc).
Proof.
  induction slc as [|v slc IH]; intros pre H; simpl; [reflexivity|]. inversion H as [|? ? Hv Hs]; subst.
  rewrite (type_assert_has _ _ Hv), set_nth_app. change (v :: slc) with ([v] ++ slc). change (v :: repeat z (length slc)) with ([v] ++ repeat z (length slc)).
  rewrite !app_assoc. replace (length pre + 1) with (length (pre ++ [v])) by (rewrite app_length; reflexivity). apply IH, Hs.
Qed.
Lemma convert_loop_bad t z : forall a v b pre, Forall (has_type t) a -> ~ has_type t v ->
  convert_loop t (length pre) (a ++ v :: b) (pre ++ repeat z (length (a ++ v :: b))) = inr (length pre + length a).
Proof.
  induction a as [|y a IH]; intros v b pre H N; simpl.
  - rewrite (type_assert_not _ _ N), Nat.add_0_r. reflexivity.
  - inversion H as [|? ? Hv Hs]; subst. rewrite (type_assert_has _ _ Hv), set_nth_app.
    change (y :: repeat z (length (a ++ v :: b))) with ([y] ++ repeat z (length (a ++ v :: b))). rewrite app_assoc.
    replace (length pre + 1) with (length (pre ++ [y])) by (rewrite app_length; reflexivity).
    rewrite IH by auto. rewrite app_length. simpl. f_equal. lia.
Qed.
Lemma convert_loop_ok0 t z slc : Forall (has_type t) slc -> convert_loop t 0 slc (repeat z (length slc)) = inl slc.
Proof. exact (convert_loop_ok t z slc []). Qed.
Lemma convert_loop_bad0 t z a v b : Forall (has_type t) a -> ~ has_type t v ->
  convert_loop t 0 (a ++ v :: b) (repeat z (length (a ++ v :: b))) = inr (length a).
Proof. exact (convert_loop_bad t z a v b []). Qed.
(** a list has all its elements of the type, or a first one that is not *)
Lemma first_bad {A} (P : A -> Prop) (D : forall x, P x \/ ~ P x) : forall l : list A,
  Forall P l \/ exists a v b, l = a ++ v :: b /\ Forall P a /\ ~ P v.
Proof.
  induction l as [|x l IH]; [left; constructor|]. destruct (D x) as [Hx|Hx].
  - destruct IH as [IH|(a & v & b & -> & Ha & Hv)]; [left; constructor; auto|].
    right. exists (x :: a), v, b. split; [reflexivity|split; [constructor; auto|auto]].
  - right. exists [], x, l. auto.
Qed.
Lemma convert2_loop_ok t : forall rows pre, Forall (Forall (has_type t)) rows ->
  convert2_loop t (length pre) (map DSlice rows) (pre ++ repeat [] (length rows)) = inl (pre ++ rows).
Proof.
  induction rows as [|r rows IH]; intros pre H; simpl; [reflexivity|]. inversion H as [|? ? Hr Hs]; subst.
  rewrite (convert_loop_ok0 t (zero_of t) r Hr). rewrite set_nth_app.
  change (r :: rows) with ([r] ++ rows). change (r :: repeat [] (length rows)) with ([r] ++ repeat [] (length rows)).
  rewrite !app_assoc. replace (length pre + 1) with (length (pre ++ [r])) by (rewrite app_length; reflexivity). apply IH, Hs.
Qed.
(** a good prefix of rows is passed over *)
Lemma convert2_loop_prefix t : forall (a : list (list dyn)) (rest : list dyn) (pre : list (list dyn)),
  Forall (Forall (has_type t)) a ->
  convert2_loop t (length pre) (map DSlice a ++ rest) (pre ++ repeat [] (length a + length rest)) =
  convert2_loop t (length (pre ++ a)) rest ((pre ++ a) ++ repeat [] (length rest)).
Proof.
  induction a as [|r a IH]; intros rest pre H; [rewrite app_nil_r; reflexivity|]. inversion H as [|? ? Hr Hs]; subst. simpl.
  rewrite (convert_loop_ok0 t (zero_of t) r Hr). rewrite set_nth_app.
  change (r :: repeat [] (length a + length rest)) with ([r] ++ repeat [] (length a + length rest)). rewrite app_assoc.
  replace (length pre + 1) with (length (pre ++ [r])) by (rewrite app_length; reflexivity).
  rewrite IH by auto. rewrite <- !app_assoc. reflexivity.
Qed.
Lemma convert_map_loop_ok t : forall e tgt, Forall (fun kv => has_type t (snd kv)) e -> convert_map_loop t e tgt = inl (tgt ++ e).
Proof.
  induction e as [|[k v] e IH]; intros tgt H; simpl; [rewrite app_nil_r; reflexivity|]. inversion H as [|? ? Hv Hs]; subst.
  simpl in Hv. rewrite (type_assert_has _ _ Hv), (IH _ Hs), <- app_assoc. reflexivity.
Qed.
Lemma convert_map_loop_bad t : forall a k v b tgt, Forall (fun kv => has_type t (snd kv)) a -> ~ has_type t v ->
  convert_map_loop t (a ++ (k, v) :: b) tgt = inr k.
Proof.
  induction a as [|[k' v'] a IH]; intros k v b tgt H N; simpl.
  - rewrite (type_assert_not _ _ N). reflexivity.
  - inversion H as [|? ? Hv Hs]; subst. simpl in Hv. rewrite (type_assert_has _ _ Hv). apply IH; auto.
Qed.
