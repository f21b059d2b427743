(** C43, C44, C47, C48, C49, C67: the helpers of funcs/funcs.go. *)
From Coq Require Import Permutation Sorting Floats.SpecFloat.
From Verif Require Import Base Slice SliceMem SliceMemProofs GoMap StreamSpec.
From Verif Require Import Funcs FuncsSpec FuncsProofs FuncsProofs2 FuncsFn FuncsFnSpec FuncsFnProofs.
Open Scope nat_scope.

(** * C43: slices *)
Section C43.
  Context {T : Type} {ZT : Zero T} (ex : nat -> nat -> nat).
  Implicit Types (m : mem T) (s : slice).

  (** SliceAdd appends, for every runtime growth policy; the only older cell it may write is the one just past the
      slice, so every slice that does not include that cell (the old slice itself, for one) keeps its elements. *)
  Theorem C43_slice_add m s v m' s' : valid m s -> slice_add ex m s v = (m', s') ->
    valid m' s' /\ contents m' s' = contents m s ++ [v] /\ s' <> None /\
    (forall t, valid m t -> (forall a i, cells_of t a i -> ~ spare_cell s a i) -> contents m' t = contents m t) /\
    contents m' s = contents m s.
  Proof.
    intros V E. destruct (slice_add_spec ex m s v m' s' V E) as (A1 & A2 & A3 & A4 & _).
    split; [auto|]. split; [auto|]. split; [auto|]. split; [|eapply frame_contents; eauto].
    - intros t Vt D. eapply frame_contents; eauto.
    - intros a i Ca Sa. destruct s as [h|]; simpl in *; lia.
  Qed.

  (** SliceCopy gives an equal, non-nil slice in an array of its own: afterwards a write through either slice is not
      seen by the other. *)
  Theorem C43_slice_copy m s m' s' : valid m s -> slice_copy m s = (m', s') ->
    s' <> None /\ contents m' s' = contents m s /\ all_unchanged m m' /\
    (forall i v m'', sset m' s' i v = Done m'' -> contents m'' s = contents m s) /\
    (forall i v m'', sset m' s i v = Done m'' -> contents m'' s' = contents m s).
  Proof.
    intros V E. pose proof (slice_copy_spec ex m s V) as P. rewrite E in P. destruct P as (P1 & P2 & P3 & P4 & P5).
    assert (Vs : valid m' s) by (eapply frame_valid; eauto).
    assert (Cs : contents m' s = contents m s) by (eapply frame_contents; eauto).
    split; [auto|]. split; [auto|]. split; [apply frame_nowhere_unchanged; auto|]. split.
    - intros i v m'' S. pose proof (sset_spec m' s' i v P1) as Q. rewrite S in Q. destruct Q as (_ & F & _ & _ & _).
      rewrite <- Cs. eapply frame_contents; eauto. intros a k Ca Sa. destruct s as [h|], s' as [h'|]; simpl in *; try tauto. lia.
    - intros i v m'' S. pose proof (sset_spec m' s i v Vs) as Q. rewrite S in Q. destruct Q as (_ & F & _ & _ & _).
      rewrite <- P2. eapply frame_contents; eauto. intros a k Ca Sa. destruct s as [h|], s' as [h'|]; simpl in *; try tauto. lia.
  Qed.

  (** SliceIndex: the element at the index (from the end when negative) if there is one, else the default or zero;
      it never panics. *)
  Theorem C43_slice_index m s i d : valid m s -> slice_index m s i d = Done (or_default (at_index (contents m s) i) d).
  Proof. apply (slice_index_spec ex). Qed.

  (** SliceRemove: removes the first occurrence, or all, keeps the order of the rest, and changes no existing slice; when
      an element is removed the result has an array of its own. *)
  Theorem C43_slice_remove (eqb : T -> T -> bool) m s v all : valid m s ->
    exists m' s', slice_remove_val eqb ex m s v all = Done (m', s') /\ valid m' s' /\
      contents m' s' = rm all (fun t => eqb t v) (contents m s) /\ all_unchanged m m' /\
      (s' = s \/ fresh m s').
  Proof.
    intros V. destruct (slice_remove_spec ex (fun t => eqb t v) m s all V) as (m' & s' & A & B & C & D & F).
    exists m', s'. split; [auto|]. split; [auto|]. split; [auto|]. split; [apply frame_nowhere_unchanged; auto|]. destruct F as [(F & _)|(F & _)]; auto.
  Qed.

  (** SliceRemoveUncomparable removes the elements with the same address as the value. *)
  Theorem C43_slice_remove_uncomparable (addr : T -> Z) m s v all : valid m s ->
    exists m' s', slice_remove_uncomparable addr ex m s v all = Done (m', s') /\ valid m' s' /\
      contents m' s' = rm all (fun t => Z.eqb (addr t) (addr v)) (contents m s) /\ all_unchanged m m'.
  Proof.
    intros V. destruct (slice_remove_spec ex (fun t => Z.eqb (addr t) (addr v)) m s all V) as (m' & s' & A & B & C & D & F).
    exists m', s'. split; [auto|]. split; [auto|]. split; [auto|]. apply frame_nowhere_unchanged; auto.
  Qed.

  (** SliceReverse reverses in place, touches nothing else, and twice is the identity. *)
  Theorem C43_slice_reverse m s : valid m s ->
    exists m', slice_reverse_mem m s = Done m' /\ contents m' s = rev (contents m s) /\
      (forall t, valid m t -> (forall a i, cells_of t a i -> ~ cells_of s a i) -> contents m' t = contents m t) /\
      exists m'', slice_reverse_mem m' s = Done m'' /\ contents m'' s = contents m s.
  Proof.
    intros V. destruct (slice_reverse_mem_spec ex m s V) as (m' & A & B & C & D). exists m'.
    split; [auto|]. split; [auto|]. split; [intros t Vt N; eapply frame_contents; eauto|].
    destruct (slice_reverse_mem_spec ex m' s B) as (m'' & A' & B' & C' & D'). exists m''. split; auto.
    rewrite C', C. apply rev_involutive.
  Qed.

  (** The sorts leave a sorted permutation in the slice and touch nothing else. *)
  Theorem C43_slice_sort less sort m s : sorts less sort -> valid m s ->
    let m' := slice_sort sort m s in
    Permutation (contents m s) (contents m' s) /\
    StronglySorted (fun a b => less b a = false) (contents m' s) /\
    (forall t, valid m t -> (forall a i, cells_of t a i -> ~ cells_of s a i) -> contents m' t = contents m t).
  Proof.
    intros S V. destruct (slice_sort_spec ex sort m s V) as (A & B & C); [intros l; apply S|]. cbv zeta. rewrite B.
    split; [apply S|]. split; [apply S|]. intros t Vt N. eapply frame_contents; eauto.
  Qed.
End C43.

(** SliceToMap and SliceToMapBy: the keys are exactly the (mapped) elements, all with value true. *)
Theorem C43_slice_to_map {T K} (eqb : K -> K -> bool) (fn : T -> K) slc k : eq_decides eqb ->
  mget eqb (slice_to_map_by eqb fn slc []) k = Some true <-> In k (map fn slc).
Proof.
  intros E. destruct (slice_to_map_by_spec eqb E fn slc [] k (NoDup_nil _)) as (_ & ->). cbn [mget].
  rewrite in_map_iff. destruct (existsb (fun x => eqb k (fn x)) slc) eqn:X.
  - split; auto. intros _. apply existsb_exists in X as (x & I & H). apply E in H. eauto.
  - split; [discriminate|]. intros (x & H & I). exfalso. rewrite <- not_true_iff_false in X. apply X.
    apply existsb_exists. exists x. split; auto. apply E. auto.
Qed.

(** SliceUniqueValues: each value of the slice once, whatever the map iteration order. *)
Theorem C43_slice_unique {K} (eqb : K -> K -> bool) slc order : eq_decides eqb ->
  Permutation (uniq_loop eqb slc []) order ->
  NoDup (map_keys_to_slice order) /\ (forall k, In k (map_keys_to_slice order) <-> In k slc).
Proof.
  intros E P. destruct (uniq_loop_spec eqb E slc [] (NoDup_nil _)) as (A & B). unfold map_keys_to_slice.
  assert (Q : Permutation (map fst (uniq_loop eqb slc [])) (map fst order)) by (apply Permutation_map; auto). split.
  - eapply Permutation_NoDup; eauto.
  - intros k. rewrite <- (Permutation_in' (eq_refl k) Q). rewrite B. simpl. tauto.
Qed.

(** SliceFlatten: the elements of a nested slice from left to right, for any number of dimensions and any ragged shape,
    provided T is the (non-slice) element type, no element is a nil interface, and a one dimensional argument has the
    unnamed type []T. *)
Theorem C43_slice_flatten v t rtyp n : wt v t -> strip t = (rtyp, S n) ->
  (n = 0 -> exists e, t = TSlice None e) ->
  (n <> 0 -> existsb is_nil_iface (leaves v) = false) ->
  slice_flatten rtyp (Some v) = Done (leaves v).
Proof.
  intros W S N1 N2. destruct v as [id z|id d|nm e vals]; inversion W; subst; try discriminate.
  unfold slice_flatten. cbn [type_of]. rewrite S. destruct (gtype_eq_dec rtyp rtyp) as [_|N]; [|congruence].
  destruct n as [|n].
  - destruct (N1 eq_refl) as (e' & Q). inversion Q; subst. cbn [Nat.eqb]. rewrite leaves_1d; auto.
    simpl in S. destruct (strip e'); simpl. congruence.
  - cbn [Nat.eqb]. rewrite flatten_f_spec by eauto. rewrite N2 by lia. reflexivity.
Qed.

(** it panics exactly as documented when the argument is not a slice or its elements are not of type T *)
Theorem C43_slice_flatten_panics v t rtyp : wt v t -> (snd (strip t) = 0 \/ fst (strip t) <> rtyp) ->
  slice_flatten rtyp (Some v) = Panicked.
Proof.
  intros W H. destruct v as [id z|id d|nm e vals]; inversion W; subst; auto. unfold slice_flatten. cbn [type_of].
  destruct (strip (TSlice nm e)) as [a b] eqn:S. simpl in H. destruct (gtype_eq_dec rtyp a) as [->|]; auto.
  destruct H as [->|N]; [|congruence]. simpl in S. destruct (strip e); discriminate.
Qed.

(** Finding: two more panics, not documented: a nil interface element in a slice of two or more dimensions, and a one
    dimensional slice of a defined type. *)
Theorem C43_finding_flatten_nil : slice_flatten (TIface 0) (Some (VSlice None (TSlice None (TIface 0))
  [VSlice None (TIface 0) [VIface 0 None]])) = Panicked.
Proof. reflexivity. Qed.
Theorem C43_finding_flatten_named : slice_flatten (TScalar 0) (Some (VSlice (Some 7) (TScalar 0) [VScalar 0 1%Z])) = Panicked.
Proof. reflexivity. Qed.

(** concrete cases *)
Example C43_ex_flatten : slice_flatten (TScalar 0) (Some (VSlice None (TSlice None (TScalar 0))
    [VSlice None (TScalar 0) [VScalar 0 1%Z; VScalar 0 2%Z]; VSlice None (TScalar 0) []; VSlice None (TScalar 0) [VScalar 0 3%Z]]))
  = Done [VScalar 0 1%Z; VScalar 0 2%Z; VScalar 0 3%Z].
Proof. reflexivity. Qed.
Example C43_ex_mem : let m := [[1; 2; 3; 4]%Z] in let s := Some (Hdr 0 1 2 3) in
  valid m s /\ contents m s = [2; 3]%Z /\
  slice_add (fun _ _ => 5) m s 9%Z = ([[1; 2; 3; 9]%Z], Some (Hdr 0 1 3 3)) /\
  slice_remove_val Z.eqb (fun _ _ => 0) m s 3%Z false = Done ([[1; 2; 3; 4]; [2]]%Z, Some (Hdr 1 0 1 1)) /\
  slice_reverse_mem m s = Done [[1; 3; 2; 4]%Z].
Proof. repeat split; simpl; lia. Qed.

(** * C44: maps *)

(** Every history of MapSet and MapUnset on an initially nil map behaves as the finite function it denotes; MapTest and
    MapIndex read it. *)
Theorem C44_map {K V} {ZV : Zero V} (eqb : K -> K -> bool) (ops : list (mapop K V)) k d : eq_decides eqb ->
  let m := fold_left (run_mapop eqb) ops None in
  let f := fold_left (spec_mapop eqb) ops (fun _ => None) in
  map_test eqb m k = (match f k with Some _ => true | None => false end) /\
  map_index eqb m k d = or_default (f k) d.
Proof.
  intros E m f. destruct (run_mapops_spec eqb E ops None (fun _ => None)) as (A & B); [constructor|auto|].
  rewrite map_test_gget, map_index_gget. fold m in B. fold f in B. rewrite B. auto.
Qed.

(** The same for two level maps: every history of Map2Set, Map2Unset, MapUnset of an outer key and assignment of nil to
    an outer key; second level maps of different outer keys are never shared. *)
Theorem C44_map2 {K1 K2 V} (eqb1 : K1 -> K1 -> bool) (eqb2 : K2 -> K2 -> bool) (ops : list (map2op K1 K2 V)) k1 k2 :
  eq_decides eqb1 -> eq_decides eqb2 ->
  let m := fold_left (run_map2op eqb1 eqb2) ops (St2 [] None) in
  let f := fold_left (spec_map2op eqb1 eqb2) ops (fun _ _ => None) in
  map2_read eqb1 eqb2 m k1 k2 = f k1 k2 /\
  map2_test eqb1 eqb2 m k1 k2 = match f k1 k2 with Some _ => true | None => false end.
Proof.
  intros E1 E2 m f. rewrite map2_test_read.
  assert (H : map2_read eqb1 eqb2 m k1 k2 = f k1 k2); [|rewrite H; auto].
  apply run_map2ops_spec; auto. split; [constructor|]. split; intros; discriminate.
Qed.

(** Maps of slices: for every runtime growth policy, every history of MapSliceAdd, MapSliceRemove (first or all) and
    MapUnset runs without a panic, and each key holds the list the history denotes; a key whose last value was removed
    stays, with an empty slice.  No key sees another's values although append works in place. *)
Theorem C44_map_slice {K V} {ZV : Zero V} (eqb : K -> K -> bool) (same : V -> V -> bool) ex (ops : list (slcop K V)) :
  eq_decides eqb ->
  exists m, run_slcops eqb same ex (Sts [] None) ops = Done m /\
    forall k, map_slice_read eqb m k = fold_left (spec_slcop eqb same) ops (fun _ => None) k.
Proof.
  intros E. apply run_slcops_spec; auto. split; [constructor|]. split; intros; discriminate.
Qed.

(** Two level maps of slices likewise. *)
Theorem C44_map2_slice {K1 K2 V} {ZV : Zero V} (eqb1 : K1 -> K1 -> bool) (eqb2 : K2 -> K2 -> bool) (same : V -> V -> bool) ex
  (ops : list (slc2op K1 K2 V)) : eq_decides eqb1 -> eq_decides eqb2 ->
  exists m, run_slc2ops eqb1 eqb2 same ex (St3 [] [] None) ops = Done m /\
    forall k1 k2, map2_slice_read eqb1 eqb2 m k1 k2 = fold_left (spec_slc2op eqb1 eqb2 same) ops (fun _ _ => None) k1 k2.
Proof.
  intros E1 E2. apply run_slc2ops_spec; auto. split; [constructor|]. split; [|split; [|split]]; intros; discriminate.
Qed.

(** MapSort: a sorted permutation of the entries for every iteration order. *)
Theorem C44_map_sort {K V} (less : K -> K -> bool) (sort : list (K * V) -> list (K * V)) (m order : list (K * V)) :
  sorts (fun a b => less (fst a) (fst b)) sort -> Permutation m order ->
  Permutation m (map_sort sort order) /\ StronglySorted (fun a b => less (fst b) (fst a) = false) (map_sort sort order).
Proof. intros S P. split; [rewrite P; apply S|apply S]. Qed.

Example C44_ex : let ops := [SAdd 1%Z 10%Z; SAdd 2%Z 20%Z; SAdd 1%Z 11%Z; SRemove 1%Z 10%Z false; SRemove 2%Z 20%Z true] in
  exists m, run_slcops Z.eqb Z.eqb (fun _ n => n) (Sts [] None) ops = Done m /\
  map_slice_read Z.eqb m 1%Z = Some [11%Z] /\ map_slice_read Z.eqb m 2%Z = Some [] /\ map_slice_read Z.eqb m 3%Z = None.
Proof. eexists. split; [reflexivity|]. auto. Qed.

(** * C47: filters *)

(** And is conjunction, Or disjunction except that Or of no filters accepts everything, Not negation. *)
Theorem C47_connectives {T W} (ps : list (T -> bool)) p t (w : W) :
  fn_and (map pure ps) t w = (forallb (fun p => p t) ps, w) /\
  fn_or (map pure ps) t w = (match ps with [] => true | _ => existsb (fun p => p t) ps end, w) /\
  fn_not (pure p) t w = (negb (p t), w).
Proof.
  unfold fn_and, fn_or. rewrite and_loop_pure, or_loop_pure. split; [destruct ps; reflexivity|]. split; reflexivity.
Qed.

(** De Morgan, for at least one filter; it fails for none. *)
Theorem C47_de_morgan {T W} (p : T -> bool) ps t (w : W) :
  fn_not (fn_and (map pure (p :: ps))) t w = fn_or (map (fun f => fn_not f) (map pure (p :: ps))) t w /\
  fn_not (fn_or (map pure (p :: ps))) t w = fn_and (map (fun f => fn_not f) (map pure (p :: ps))) t w.
Proof.
  assert (M : forall l, map (fun f : T -> W -> bool * W => fn_not f) (map pure l) = map pure (map (fun q x => negb (q x)) l)).
  { induction l as [|q l IH]; simpl; auto. rewrite IH. f_equal. }
  rewrite M. unfold fn_not at 1 2, fn_and, fn_or. rewrite !and_loop_pure, !or_loop_pure. simpl.
  assert (A : negb (forallb (fun q => q t) ps) = existsb (fun q => q t) (map (fun q x => negb (q x)) ps)).
  { induction ps as [|q ps IH]; simpl; auto. rewrite negb_andb, IH. reflexivity. }
  assert (B : negb (existsb (fun q => q t) ps) = forallb (fun q => q t) (map (fun q x => negb (q x)) ps)).
  { clear A. induction ps as [|q ps IH]; simpl; auto. rewrite negb_orb, IH. reflexivity. }
  rewrite negb_andb, negb_orb, A, B. auto.
Qed.
Theorem C47_de_morgan_empty {T W} (t : T) (w : W) : fst (fn_not (fn_and []) t w) <> fst (fn_or [] t w).
Proof. discriminate. Qed.

(** Short circuit: once the outcome is known the remaining filters, whatever they would do, are not called. *)
Theorem C47_short_circuit {T W} (a b : list (T -> W -> bool * W)) f t w w' :
  (all_return true a t w w' -> fst (f t w') = false -> fn_and (a ++ f :: b) t w = (false, snd (f t w'))) /\
  (all_return false a t w w' -> fst (f t w') = true -> fn_or (a ++ f :: b) t w = (true, snd (f t w'))).
Proof. split; [apply and_short|apply or_short]. Qed.

(** Comparators on integers decide the order *)
Theorem C47_compare_int (v t : Z) (vs : list Z) :
  (less_than ord_int v t = true <-> (t < v)%Z) /\ (less_than_equal ord_int v t = true <-> (t <= v)%Z) /\
  (fn_equal ord_int v t = true <-> t = v) /\ (greater_than ord_int v t = true <-> (t > v)%Z) /\
  (greater_than_equal ord_int v t = true <-> (t >= v)%Z) /\ (fn_in ord_int vs t = true <-> In t vs) /\
  (is_negative ord_int 0%Z t = true <-> (t < 0)%Z) /\ (is_non_negative ord_int 0%Z t = true <-> (t >= 0)%Z) /\
  (is_positive ord_int 0%Z t = true <-> (t > 0)%Z).
Proof.
  unfold less_than, less_than_equal, fn_equal, greater_than, greater_than_equal, is_negative, is_non_negative, is_positive.
  cbn [ord_int olt ole oeq ogt oge]. rewrite !Z.ltb_lt, !Z.leb_le, !Z.eqb_eq, !Z.gtb_lt, !Z.geb_le.
  repeat split; try lia; apply in_loop_In.
Qed.

(** on strings they are a strict total order and its derived relations *)
Theorem C47_compare_string (v t u : list Z) :
  (fn_equal ord_string v t = true <-> t = v) /\
  greater_than ord_string v t = less_than ord_string t v /\
  less_than_equal ord_string v t = (less_than ord_string v t || fn_equal ord_string v t) /\
  greater_than_equal ord_string v t = negb (less_than ord_string v t) /\
  (less_than ord_string t t = false) /\
  (less_than ord_string v t = true -> less_than ord_string u v = true -> less_than ord_string u t = true).
Proof.
  unfold less_than, less_than_equal, fn_equal, greater_than, greater_than_equal. cbn [ord_string olt ole oeq ogt oge].
  rewrite (str_cmp_anti t v). split; [|split; [|split; [|split; [|split]]]].
  - rewrite <- str_cmp_eq. destruct (str_cmp t v); split; congruence.
  - destruct (str_cmp t v); reflexivity.
  - destruct (str_cmp t v); reflexivity.
  - destruct (str_cmp t v); reflexivity.
  - assert (Q : str_cmp t t = Eq) by (apply str_cmp_eq; reflexivity). rewrite Q. reflexivity.
  - destruct (str_cmp t v) eqn:A; try discriminate. destruct (str_cmp v u) eqn:B; try discriminate.
    intros _ _. rewrite (str_cmp_trans _ _ _ A B). reflexivity.
Qed.

(** on floats LessThan and GreaterThanEqual are complementary exactly when no NaN is involved *)
Theorem C47_compare_float (v t : spec_float) :
  (is_nan v = false -> is_nan t = false -> greater_than_equal ord_float v t = negb (less_than ord_float v t)) /\
  (is_nan v = true \/ is_nan t = true ->
     less_than ord_float v t = false /\ less_than_equal ord_float v t = false /\ fn_equal ord_float v t = false /\
     greater_than ord_float v t = false /\ greater_than_equal ord_float v t = false).
Proof.
  unfold less_than, less_than_equal, fn_equal, greater_than, greater_than_equal. cbn [ord_float olt ole oeq ogt oge].
  split.
  - unfold SFltb, SFleb. intros N1 N2.
    destruct v as [sv|sv| |sv mv ev], t as [st|st| |st mt et]; try discriminate; simpl; try (destruct sv; reflexivity); try (destruct st; reflexivity);
      try (destruct sv, st; reflexivity).
    destruct sv, st; try reflexivity;
      rewrite (Z.compare_antisym ev et); destruct (Z.compare ev et); simpl; try reflexivity;
      change (Pos.compare_cont Eq mv mt) with (Pos.compare mv mt); change (Pos.compare_cont Eq mt mv) with (Pos.compare mt mv);
      rewrite (Pos.compare_antisym mv mt); destruct (Pos.compare mv mt); reflexivity.
  - unfold SFltb, SFleb, SFeqb. intros [N|N].
    + destruct v; try discriminate. destruct t; auto 6.
    + destruct t; try discriminate. destruct v; auto 6.
Qed.

(** Compose applies the functions in the order given, whatever they do. *)
Theorem C47_compose {T W} (f0 : T -> W -> T * W) fns t w :
  fn_compose f0 fns t w = fold_left (fun tw f => f (fst tw) (snd tw)) (f0 :: fns) (t, w).
Proof.
  unfold fn_compose. cbn [fold_left fst snd]. destruct (f0 t w) as [t' w']. revert t' w'.
  induction fns as [|f fns IH]; intros t' w'; simpl; auto. destruct (f t' w'). apply IH.
Qed.
Theorem C47_compose10 {P Q R S T U V W X Y Z} (f0 : P -> Q) (f1 : Q -> R) (f2 : R -> S) (f3 : S -> T) (f4 : T -> U)
  (f5 : U -> V) (f6 : V -> W) (f7 : W -> X) (f8 : X -> Y) (f9 : Y -> Z) p :
  fn_compose10 f0 f1 f2 f3 f4 f5 f6 f7 f8 f9 p =
  fn_compose2 f0 (fn_compose2 f1 (fn_compose2 f2 (fn_compose2 f3 (fn_compose2 f4 (fn_compose2 f5 (fn_compose2 f6
    (fn_compose2 f7 (fn_compose2 f8 f9)))))))) p.
Proof. reflexivity. Qed.

(** TernaryResult calls only the selected function. *)
Theorem C47_ternary {T W} {ZT : Zero T} (f g : W -> T * W) other w :
  ternary_result true (Some f) other w = f w /\ ternary_result false other (Some g) w = g w /\
  ternary_result true None other w = (zv, w) /\ ternary_result false other None w = (zv, w).
Proof. auto. Qed.

(** Ternary selects one of two values. *)
Theorem C47_ternary_value {T} (a b : T) : ternary true a b = a /\ ternary false a b = b.
Proof. auto. Qed.

(** * C48: TryTo *)

(** For every function, handler and list of closers, any of which may panic: the function runs first, then every closer
    exactly once in reverse order, then the handler with the last panic value iff something panicked (with a non-nil
    value); no panic of the function or the closers escapes, only one of the handler does. *)
Theorem C48_try_to {W V} (tryFn : @thunk W V) (panicFn : V -> @thunk W V) (closers : list thunk) w :
  let before := tryFn :: rev closers in
  let log := ETry :: map ECloser (rev (seq 0 (length closers))) in
  try_to (logged ETry tryFn) (fun v => logged (EHandler v) (panicFn v)) (logged_closers 0 closers) ([], w) =
  match last_opt (panics before w) with
  | Some (PVal v) => ((log ++ [EHandler v], fst (panicFn v (world_after before w))), snd (panicFn v (world_after before w)))
  | _ => ((log, world_after before w), None)
  end.
Proof.
  cbv zeta. unfold try_to. rewrite push_defers_rev, app_nil_r. rewrite logged_run. rewrite run_defers_spec.
  destruct (logged_closers_spec closers 0 ([] ++ [ETry]) (fst (tryFn w))) as (A & B). rewrite A, B.
  cbn [panics world_after fold_left app]. rewrite last_opt_app.
  fold (world_after (rev closers) (fst (tryFn w))).
  destruct (last_opt (panics (rev closers) (fst (tryFn w)))) as [[|v]|]; [reflexivity|rewrite logged_run; reflexivity|].
  destruct (snd (tryFn w)) as [[|v]|]; cbn [last_opt rev app hd_error]; [reflexivity|rewrite logged_run; reflexivity|reflexivity].
Qed.

(** if neither the function nor a closer panics the handler does not run and nothing escapes *)
Theorem C48_no_panic {W V} (tryFn : @thunk W V) panicFn (closers : list thunk) w :
  panics (tryFn :: rev closers) w = [] -> try_to tryFn panicFn closers w = (world_after (tryFn :: rev closers) w, None).
Proof.
  unfold try_to. rewrite push_defers_rev, app_nil_r. cbn [panics world_after fold_left].
  destruct (tryFn w) as [w1 [p|]]; cbn [fst snd app]; [discriminate|]. intros H. rewrite run_defers_spec, H. reflexivity.
Qed.

(** Finding: panic(nil) is swallowed without the handler being called. *)
Theorem C48_finding_panic_nil : try_to (fun w : list Z => (w ++ [1%Z], Some PNil)) (fun v w => (w ++ [v], None)) [] [] = ([1%Z], None).
Proof. reflexivity. Qed.
Example C48_ex : try_to (fun w : list Z => (w ++ [1%Z], Some (PVal 100%Z))) (fun v w => (w ++ [v], None))
    [(fun w => (w ++ [2%Z], None)); (fun w => (w ++ [3%Z], Some (PVal 200%Z)))] [] = ([1; 3; 2; 200]%Z, None).
Proof. reflexivity. Qed.

(** * C49: SupplierCached *)

(** Every supplier, however stateful: once a call has returned a value, all further calls return that value and never
    call the supplier again (the world it would have changed stays put). *)
Theorem C49_cached {T W V} {ZT : Zero T} (sup : @supplier T W V) w w' v n :
  sup w = (w', inl v) -> cached_calls sup (S n) cache0 w = ((Cache true v, w'), repeat (inl v) (S n)).
Proof. intros E. cbn [cached_calls]. unfold cached_call, cache0. cbn [isCached negb]. rewrite E. rewrite cached_done. reflexivity. Qed.

(** With a supplier that panics on its first k calls and counts its calls: n calls of the cached supplier call it
    min(n, k+1) times; the first k report the panic, the others the value of call k. *)
Theorem C49_cached_panicking {T} {ZT : Zero T} (k : nat) (f : nat -> T) n :
  let '((_, calls), results) := cached_calls (counting k f) n cache0 0 in
  calls = Nat.min n (S k) /\
  results = firstn n (repeat (inr (PVal 0%Z)) k ++ repeat (inl (f k)) (n - k)).
Proof.
  rewrite counting_calls by (auto; lia). rewrite Nat.sub_0_r. destruct (Nat.leb_spec n k).
  - split; [lia|]. rewrite firstn_app, repeat_length. replace (n - k) with 0 by lia. simpl. rewrite app_nil_r.
    revert n H. induction k as [|k IH]; intros [|n] H; simpl; auto; [lia|]. f_equal. apply IH. lia.
  - split; [lia|]. rewrite firstn_all2; auto. rewrite app_length, !repeat_length. lia.
Qed.

(** Finding: so a supplier that panics is invoked again, contrary to the documented "at most once". *)
Theorem C49_finding_panic : snd (fst (cached_calls (counting 1 (fun n => Z.of_nat n)) 2 cache0 0)) = 2.
Proof. reflexivity. Qed.
(** Finding: two concurrent first calls may both invoke the supplier, and return different values. *)
Theorem C49_finding_concurrent : exists schedule, let s := fold_left (fun s t => cstep t s) schedule (CS false 0 0 CStart CStart) in
  cs_calls s = 2 /\ cs_t0 s = CDone 0 /\ cs_t1 s = CDone 1.
Proof. exists [false; true; false; true]. auto. Qed.

(** * C67: conversions of dynamically typed values *)

(** AssertType gives the value itself if it has the type, and otherwise the zero value with an error. *)
Theorem C67_assert_type t v :
  (has_type t v -> assert_type t v = (v, false)) /\ (~ has_type t v -> assert_type t v = (zero_of t, true)).
Proof.
  unfold assert_type. split; intros H; [rewrite (type_assert_has _ _ H)|rewrite (type_assert_not _ _ H)]; reflexivity.
Qed.
(** ConvertToSlice on a []any: all the elements, unchanged, when all have type T; otherwise it reports the first that
    does not, and returns nil. *)
Theorem C67_convert_to_slice t slc :
  (Forall (has_type t) slc -> convert_to_slice t (DSlice slc) = (Some slc, None)) /\
  (forall a v b, slc = a ++ v :: b -> Forall (has_type t) a -> ~ has_type t v ->
     convert_to_slice t (DSlice slc) = (None, Some (BadElem (length a)))).
Proof.
  split.
  - intros H. unfold convert_to_slice. rewrite (convert_loop_ok0 t (zero_of t) slc H). reflexivity.
  - intros a v b -> H N. unfold convert_to_slice. rewrite (convert_loop_bad0 t (zero_of t) a v b H N). reflexivity.
Qed.
(** exactly: it succeeds only on a []any all of whose elements have type T, and then with those elements; on anything
    else it reports an error with a nil result. *)
Theorem C67_convert_to_slice_exact t v :
  (forall res, convert_to_slice t v = (res, None) <-> exists slc, v = DSlice slc /\ Forall (has_type t) slc /\ res = Some slc) /\
  (forall res e, convert_to_slice t v = (res, Some e) -> res = None) /\
  (~ has_type ASlice v -> convert_to_slice t v = (None, Some NotContainer)).
Proof.
  repeat split.
  - intros H. destruct v as [|id x|slc|k e]; try discriminate. exists slc. split; [reflexivity|].
    destruct (first_bad _ (has_type_dec t) slc) as [G|(a & v & b & -> & Ha & Hv)].
    + destruct (C67_convert_to_slice t slc) as (P & _). rewrite (P G) in H. injection H as <-. auto.
    + destruct (C67_convert_to_slice t (a ++ v :: b)) as (_ & P). rewrite (P a v b eq_refl Ha Hv) in H. discriminate.
  - intros (slc & -> & G & ->). apply (proj1 (C67_convert_to_slice t slc) G).
  - intros res e. destruct v as [|id x|slc|k e']; simpl; try (intros H; injection H; auto).
    destruct convert_loop; intros H; injection H; auto; discriminate.
  - intros N. destruct v as [|id x|slc|k e']; try reflexivity. destruct N. exists slc. reflexivity.
Qed.
(** ConvertToSlice2 on a []any of []any: the same rows when every element of every row has type T; otherwise it reports
    the first row that is not a []any, or the first element of a row that does not have type T, and returns nil. *)
Theorem C67_convert_to_slice2 t (rows : list (list dyn)) :
  Forall (Forall (has_type t)) rows -> convert_to_slice2 t (DSlice (map DSlice rows)) = (Some rows, None).
Proof.
  intros H. unfold convert_to_slice2. rewrite map_length. pose proof (convert2_loop_ok t rows [] H) as P. cbn [app length] in P. rewrite P. reflexivity.
Qed.
Theorem C67_convert_to_slice2_error t (rows : list (list dyn)) v rest :
  Forall (Forall (has_type t)) rows ->
  (~ has_type ASlice v ->
     convert_to_slice2 t (DSlice (map DSlice rows ++ v :: rest)) = (None, Some (BadElem (length rows)))) /\
  (forall a x b, v = DSlice (a ++ x :: b) -> Forall (has_type t) a -> ~ has_type t x ->
     convert_to_slice2 t (DSlice (map DSlice rows ++ v :: rest)) = (None, Some (BadElem2 (length rows) (length a)))).
Proof.
  intros H. unfold convert_to_slice2. rewrite app_length, map_length. pose proof (convert2_loop_prefix t rows (v :: rest) [] H) as P.
  cbn [app length] in P. cbn [length]. rewrite P. clear P. split.
  - intros N. cbn [convert2_loop]. destruct v as [|id x|slc|k e']; try reflexivity. destruct N. exists slc. reflexivity.
  - intros a x b -> Ha Hx. cbn [convert2_loop]. rewrite (convert_loop_bad0 t (zero_of t) a x b Ha Hx). reflexivity.
Qed.
Theorem C67_convert_to_slice2_exact t v :
  (forall res, convert_to_slice2 t v = (res, None) <->
     exists rows, v = DSlice (map DSlice rows) /\ Forall (Forall (has_type t)) rows /\ res = Some rows) /\
  (forall res e, convert_to_slice2 t v = (res, Some e) -> res = None) /\
  (~ has_type ASlice v -> convert_to_slice2 t v = (None, Some NotContainer)).
Proof.
  repeat split.
  - intros H. destruct v as [|id x|slc|k e]; try discriminate.
    assert (D : forall y, (exists row, y = DSlice row /\ Forall (has_type t) row) \/ ~ (exists row, y = DSlice row /\ Forall (has_type t) row)).
    { intros [|? ?|row|? ?]; try (right; intros (r & E & _); discriminate).
      destruct (first_bad _ (has_type_dec t) row) as [G|(a & v & b & -> & Ha & Hv)]; [left; eauto|right].
      intros (r & E & F). injection E as <-. apply Forall_app in F. destruct F as (_ & F). inversion F; contradiction. }
    assert (R : forall l, Forall (fun y => exists row, y = DSlice row /\ Forall (has_type t) row) l ->
              exists rows, l = map DSlice rows /\ Forall (Forall (has_type t)) rows).
    { induction 1 as [|y l (row & -> & F) _ (rows & -> & G)]; [exists []; auto|]. exists (row :: rows). split; [reflexivity|constructor; auto]. }
    destruct (first_bad _ D slc) as [G|(a & v & b & -> & Ha & Hv)].
    + destruct (R _ G) as (rows & -> & F). rewrite (C67_convert_to_slice2 t rows F) in H. injection H as <-. eauto.
    + destruct (R _ Ha) as (rows & -> & F). destruct (C67_convert_to_slice2_error t rows v b F) as (P & Q).
      destruct (has_type_dec ASlice v) as [(row & ->)|N]; [|rewrite (P N) in H; discriminate].
      destruct (first_bad _ (has_type_dec t) row) as [G|(a' & x & b' & -> & Ha' & Hx)]; [destruct Hv; eauto|].
      rewrite (Q a' x b' eq_refl Ha' Hx) in H. discriminate.
  - intros (rows & -> & G & ->). apply (C67_convert_to_slice2 t rows G).
  - intros res e. destruct v as [|id x|slc|k e']; simpl; try (intros H; injection H; auto).
    destruct convert2_loop; intros H; injection H; auto; discriminate.
  - intros N. destruct v as [|id x|slc|k e']; try reflexivity. destruct N. exists slc. reflexivity.
Qed.
(** ConvertToMap on a map[K]any: the same entries when every value has type V; otherwise it reports a key whose value
    does not (the first in iteration order), and returns nil; any other argument, a map with another key type among them,
    is an error too. *)
Theorem C67_convert_to_map kid t (entries : list (Z * dyn)) :
  (Forall (fun kv => has_type t (snd kv)) entries -> convert_to_map kid t (DMap kid entries) = (Some entries, None)) /\
  (forall a k v b, entries = a ++ (k, v) :: b -> Forall (fun kv => has_type t (snd kv)) a -> ~ has_type t v ->
     convert_to_map kid t (DMap kid entries) = (None, Some (BadKey k))).
Proof.
  unfold convert_to_map. cbn [type_assert]. rewrite Nat.eqb_refl. split.
  - intros H. rewrite (convert_map_loop_ok _ _ _ H). reflexivity.
  - intros a k v b -> H N. rewrite (convert_map_loop_bad _ _ _ _ _ _ H N). reflexivity.
Qed.
Theorem C67_convert_to_map_exact kid t v :
  (forall res, convert_to_map kid t v = (res, None) <->
     exists e, v = DMap kid e /\ Forall (fun kv => has_type t (snd kv)) e /\ res = Some e) /\
  (forall res e, convert_to_map kid t v = (res, Some e) -> res = None) /\
  (~ has_type (AMap kid) v -> convert_to_map kid t v = (None, Some NotContainer)).
Proof.
  assert (D : forall kv, has_type t (@snd Z dyn kv) \/ ~ has_type t (snd kv)) by (intros; apply has_type_dec).
  destruct (has_type_dec (AMap kid) v) as [(e & ->)|N].
  - destruct (C67_convert_to_map kid t e) as (P & Q). destruct (first_bad _ D e) as [G|(a & [k x] & b & -> & Ha & Hx)].
    + rewrite (P G). repeat split; try discriminate.
      * intros E. injection E as <-. eauto.
      * intros (e' & E & _ & ->). injection E as <-. reflexivity.
      * intros N. destruct N. simpl. eauto.
    + rewrite (Q a k x b eq_refl Ha Hx). repeat split; try discriminate.
      * intros (e' & E & G & _). injection E as <-. apply Forall_app in G. destruct G as (_ & G). inversion G. contradiction.
      * intros res e E. injection E. auto.
      * intros N. destruct N. simpl. eauto.
  - assert (E : convert_to_map kid t v = (None, Some NotContainer)) by (unfold convert_to_map; rewrite (type_assert_not _ _ N); reflexivity).
    rewrite E. repeat split; try discriminate.
    + intros (e' & -> & _). destruct N. simpl. eauto.
    + intros res e H. injection H. auto.
Qed.
(** Finding: nil has no type, not even an interface type, so a []any with a nil in it does not convert to a []any, and
    neither does a map[K]any with a nil value: what JSON null decodes to cannot be converted. *)
Theorem C67_finding_nil t :
  assert_type t DNil = (zero_of t, true) /\
  (forall a b, Forall (has_type t) a -> convert_to_slice t (DSlice (a ++ DNil :: b)) = (None, Some (BadElem (length a)))) /\
  (forall kid a k b, Forall (fun kv => has_type t (snd kv)) a ->
     convert_to_map kid t (DMap kid (a ++ (k, DNil) :: b)) = (None, Some (BadKey k))) /\
  (forall v, v <> DNil -> has_type any_type v).
Proof.
  assert (N : ~ has_type t DNil).
  { destruct t as [id| |kid|bare impl]; simpl; [intros (x & E)|intros (x & E)|intros (x & E)|intros (E & _); destruct (E eq_refl)]; discriminate. }
  split; [|split; [|split]].
  - apply (proj2 (C67_assert_type t DNil) N).
  - intros a b H. apply (proj2 (C67_convert_to_slice t _) a DNil b eq_refl H N).
  - intros kid a k b H. apply (proj2 (C67_convert_to_map kid t _) a k DNil b eq_refl H N).
  - intros v H. split; auto.
Qed.
Example C67_ex : convert_to_slice (AType 3) (DSlice [DVal 3 1%Z; DVal 4 2%Z]) = (None, Some (BadElem 1)) /\
  convert_to_slice (AType 3) (DSlice [DVal 3 1%Z; DVal 3 2%Z]) = (Some [DVal 3 1; DVal 3 2]%Z, None) /\
  convert_to_slice2 (AType 3) (DSlice [DSlice [DVal 3 1%Z]; DSlice [DVal 3 7; DVal 4 2]%Z]) = (None, Some (BadElem2 1 1)) /\
  convert_to_map 0 any_type (DMap 0 [(5, DVal 3 1); (6, DNil)]%Z) = (None, Some (BadKey 6%Z)).
Proof. repeat split; reflexivity. Qed.
