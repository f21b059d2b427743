(** Property C100: the fields of a struct by name. *)
From Coq Require Import ZArith List Bool Lia.
From Verif Require Import Base Rest Fields FieldsSpec FieldsProofs FieldsProofs2.
Import ListNotations.
Open Scope nat_scope.

Lemma str_eqb_refl a : str_eqb a a = true.
Proof. apply str_eqb_eq. reflexivity. Qed.

Lemma first_named_some name fs : forall k p f, first_named name k fs = Some (p, f) ->
  exists i, p = [k + i] /\ nth_error fs i = Some f /\ fname f = name /\ (forall j g, j < i -> nth_error fs j = Some g -> fname g <> name).
Proof.
  induction fs as [|g fs IH]; intros k p f; cbn [first_named]; [discriminate|]. destruct (str_eqb (fname g) name) eqn:E.
  - intros X. injection X as <- <-. exists 0. rewrite Nat.add_0_r. apply str_eqb_eq in E. repeat split; [exact E|intros; lia].
  - intros X. destruct (IH _ _ _ X) as (i & -> & N & Nm & F). exists (S i). split; [f_equal; lia|]. split; [exact N|]. split; [exact Nm|].
    intros [|j] h L; cbn; [|intros; apply (F j); [lia|assumption]]. intros Y. injection Y as <-. intros Z. apply str_eqb_eq in Z. congruence.
Qed.
Lemma first_named_none name fs : forall k, first_named name k fs = None -> forall f, In f fs -> fname f <> name.
Proof.
  induction fs as [|g fs IH]; intros k E f []; cbn [first_named] in E; destruct (str_eqb (fname g) name) eqn:B; try discriminate.
  - subst. intros Z. apply str_eqb_eq in Z. congruence.
  - exact (IH _ E f H).
Qed.
Section Types.
  Variable types : list (list field).
  Notation selects := (selects types).
  Notation leads_to := (leads_to types).

  Lemma leads_direct t name p f : leads_to t name p f -> length p = 1 -> exists i, p = [i] /\ nth_error (fields types t) i = Some f /\ fname f = name.
  Proof.
    intros [q u i g R N Nm] L. rewrite app_length in L. cbn in L. destruct q; [|cbn in L; lia]. inversion R as [|q' ? ? ? ? ? ? ? X]; subst.
    - exists i. repeat split; assumption.
    - destruct q'; discriminate.
  Qed.
  Lemma leads_pos t name p f : leads_to t name p f -> 1 <= length p.
  Proof. intros [q u i g R N Nm]. rewrite app_length. cbn. lia. Qed.
  Lemma selects_unique t name p f p' f' : selects t name p f -> selects t name p' f' -> p = p'.
  Proof. intros [H U] [H' U']. destruct (U _ _ H') as [L|E]; [|congruence]. destruct (U' _ _ H) as [L'|E]; [lia|congruence]. Qed.
  Lemma reaches_fun t p : forall u u', reaches types t p u -> reaches types t p u' -> u = u'.
  Proof.
    induction p as [|i p IH] using rev_ind; intros u u' R R'.
    - inversion R as [|? ? ? ? ? ? ? ? X]; [|destruct path; discriminate]. inversion R' as [|? ? ? ? ? ? ? ? Y]; [congruence|destruct path; discriminate].
    - inversion R as [X|q v j f w R1 N1 E1 X]; [destruct p; discriminate|]. inversion R' as [Y|q' v' j' f' w' R2 N2 E2 Y]; [destruct p; discriminate|].
      apply app_inj_tail in X, Y. destruct X, Y. subst. assert (v = v') by exact (IH _ _ R1 R2). subst. congruence.
  Qed.
  Lemma leads_fun t name p f f' : leads_to t name p f -> leads_to t name p f' -> f = f'.
  Proof.
    intros [q u i g R N Nm] H. inversion H as [q' u' i' g' R' N' Nm' X]. apply app_inj_tail in X. destruct X. subst. assert (u' = u) by exact (reaches_fun _ _ _ _ R' R). subst. congruence.
  Qed.
  Lemma func_selects t name p f : field_by_name_func types t name = Some (p, f) <-> selects t name p f.
  Proof.
    destruct (field_by_name_func_answer types name t) as [A B]. split; [apply A|]. intros H. destruct (field_by_name_func types t name) as [[p' f']|] eqn:E.
    - assert (H' := A _ _ eq_refl). assert (p' = p) by exact (selects_unique _ _ _ _ _ _ H' H). subst. f_equal. f_equal. exact (leads_fun _ _ _ _ _ (proj1 H') (proj1 H)).
    - destruct (B eq_refl _ _ H).
  Qed.
  Lemma no_embedded_reaches t : existsb fembedded (fields types t) = false -> forall p u, reaches types t p u -> p = [] /\ u = t.
  Proof.
    intros E p u R. induction R as [|p u i f v R [-> ->] N Em]; [auto|]. exfalso. unfold embedded_struct in Em. destruct (fembedded f) eqn:F; [|discriminate].
    assert (existsb fembedded (fields types t) = true); [|congruence]. apply existsb_exists. exists f. split; [exact (nth_error_In _ _ N)|exact F].
  Qed.

  (** GetFieldByName gives the field that the Go specification lets a selector denote, with the indexes that lead to it, and panics
      exactly when no field may be selected by that name. *)
  Theorem C100_selector t name p f : well_formed types -> name <> [] -> name <> blank ->
    (get_field_by_name types (TStruct t) name = Done (p, f) <-> selects t name p f).
  Proof.
    intros W N1 N2. unfold get_field_by_name, field_by_name. destruct name as [|c name]; [congruence|]. set (nm := c :: name) in *. clearbody nm.
    destruct (first_named nm 0 (fields types t)) as [[p' f']|] eqn:E.
    - apply first_named_some in E. destruct E as (i & -> & N & Nm & _). cbn [Nat.add].
      assert (Dir : leads_to t nm [i] f') by (change [i] with (@nil nat ++ [i]); econstructor; [constructor|exact N|exact Nm]).
      assert (Sel : selects t nm [i] f').
      { split; [exact Dir|]. intros q g H. pose proof (leads_pos _ _ _ _ H). destruct (Nat.eq_dec (length q) 1) as [L|L]; [|left; cbn; lia]. right.
        destruct (leads_direct _ _ _ _ H L) as (j & -> & Nj & Nmj). f_equal. apply (W t j i g f' Nj N); congruence. }
      split.
      + intros X. injection X as <- <-. exact Sel.
      + intros H. assert (p = [i]) by exact (selects_unique _ _ _ _ _ _ H Sel). subst. f_equal. f_equal. exact (leads_fun _ _ _ _ _ Dir (proj1 H)).
    - destruct (existsb fembedded (fields types t)) eqn:Em.
      + destruct (field_by_name_func types t nm) as [r|] eqn:B.
        * rewrite <- func_selects, B. split; congruence.
        * rewrite <- func_selects, B. split; discriminate.
      + split; [discriminate|]. intros [H _]. destruct H as [q u i g R N Nm]. apply (no_embedded_reaches _ Em) in R. destruct R as [-> ->].
        destruct (first_named_none _ _ _ E g (nth_error_In _ _ N) Nm).
  Qed.
  Theorem C100_panics t name : well_formed types -> name <> [] -> name <> blank ->
    (get_field_by_name types (TStruct t) name = Panicked <-> forall p f, ~ selects t name p f).
  Proof.
    intros W N1 N2. split.
    - intros E p f H. apply (C100_selector t name p f W N1 N2) in H. congruence.
    - intros H. destruct (get_field_by_name types (TStruct t) name) as [[p f]| |] eqn:E; try reflexivity.
      + apply (C100_selector t name p f W N1 N2) in E. destruct (H _ _ E).
      + revert E. unfold get_field_by_name. destruct (field_by_name types t name); discriminate.
  Qed.
  (** the empty name is no field's, and a type that is not a struct (also a pointer to one) has no fields *)
  Theorem C100_no_field t name : get_field_by_name types (TStruct t) [] = Panicked /\
    forall u, (forall id, u <> TStruct id) -> get_field_by_name types u name = Panicked /\ fields_by_name types u = None.
  Proof. split; [reflexivity|]. intros [id|u|id] H; [destruct (H id eq_refl)|split; reflexivity..]. Qed.

  (** ** FieldsByName *)
  Lemma put_get m k f k' : map_get (Some (put m k f)) k' = if str_eqb k k' then Some f else map_get (Some m) k'.
  Proof.
    cbn [map_get]. induction m as [|[k0 f0] m IH]; cbn [put find fst].
    - destruct (str_eqb k k'); reflexivity.
    - destruct (str_eqb k0 k) eqn:E; cbn [find fst].
      + apply str_eqb_eq in E. subst. destruct (str_eqb k k'); reflexivity.
      + destruct (str_eqb k0 k') eqn:E'; [|exact IH]. apply str_eqb_eq in E'. subst. destruct (str_eqb k k') eqn:E2; [|reflexivity].
        apply str_eqb_eq in E2. subst. rewrite str_eqb_refl in E. discriminate.
  Qed.
  Lemma puts_get fs : forall m k, map_get (Some (fold_left (fun m f => put m (fname f) f) fs m)) k =
    match find (fun f => str_eqb (fname f) k) (rev fs) with Some f => Some f | None => map_get (Some m) k end.
  Proof.
    induction fs as [|f fs IH]; intros m k; [reflexivity|]. cbn [fold_left rev]. rewrite IH. rewrite put_get.
    assert (G : forall (h : field -> bool) a b, find h (a ++ b) = match find h a with Some x => Some x | None => find h b end).
    { intros h a b. induction a as [|x a IHa]; [reflexivity|]. cbn. destruct (h x); auto. }
    rewrite G. cbn [find]. destruct (find _ (rev fs)); [reflexivity|]. destruct (str_eqb (fname f) k); reflexivity.
  Qed.
  Lemma puts_keys fs : forall m, NoDup (map fst m) -> NoDup (map fst (fold_left (fun m f => put m (fname f) f) fs m)).
  Proof.
    assert (Pk : forall m k f, map fst (put m k f) = if existsb (fun e => str_eqb (fst e) k) m then map fst m else map fst m ++ [k]).
    { induction m as [|[k0 f0] m IH]; intros k f; [reflexivity|]. cbn [put existsb fst]. destruct (str_eqb k0 k); [reflexivity|]. cbn [map fst orb]. rewrite IH.
      destruct (existsb _ m); reflexivity. }
    induction fs as [|f fs IH]; intros m ND; [exact ND|]. cbn [fold_left]. apply IH. rewrite Pk. destruct (existsb _ m) eqn:E; [exact ND|].
    assert (~ In (fname f) (map fst m)).
    { intros J. apply in_map_iff in J. destruct J as (e & Ee & J). assert (existsb (fun e => str_eqb (fst e) (fname f)) m = true); [|congruence].
      apply existsb_exists. exists e. split; [exact J|]. apply str_eqb_eq. exact Ee. }
    clear - ND H. induction (map fst m) as [|x l IH]; [repeat constructor; intros []|]. inversion ND; subst. cbn [app]. constructor.
    - intros J. apply in_app_or in J. destruct J as [J|[J|[]]]; [tauto|]. apply H. left. congruence.
    - apply IH; [assumption|]. intros J. apply H. right. exact J.
  Qed.
  (** the map is nil exactly for what is not a struct and for a struct with no fields *)
  Theorem C100_nil_map u : fields_by_name types u = None <-> match u with TStruct id => fields types id = [] | _ => True end.
  Proof. destruct u as [id|u|id]; cbn; [|tauto..]. destruct (fields types id); split; intros; congruence. Qed.
  (** each name is once in the map, with the last field of that name; the names are those of the fields in the struct itself *)
  Theorem C100_direct t k f : map_get (fields_by_name types (TStruct t)) k = Some f <->
    exists i, nth_error (fields types t) i = Some f /\ fname f = k /\ forall j g, i < j -> nth_error (fields types t) j = Some g -> fname g <> k.
  Proof.
    assert (E : map_get (fields_by_name types (TStruct t)) k = find (fun f => str_eqb (fname f) k) (rev (fields types t))).
    { unfold fields_by_name. destruct (fields types t) as [|f0 fs]; [reflexivity|]. rewrite puts_get. destruct (find _ _); reflexivity. }
    rewrite E. clear E. generalize (fields types t). clear t. intros fs. induction fs as [|g fs IH] using rev_ind.
    - cbn. split; [discriminate|]. intros ([|i] & N & _); discriminate.
    - rewrite rev_app_distr. cbn [rev app find]. destruct (str_eqb (fname g) k) eqn:E.
      + apply str_eqb_eq in E. split.
        * intros X. injection X as <-. exists (length fs). rewrite nth_error_app2, Nat.sub_diag by lia. split; [reflexivity|]. split; [exact E|].
          intros j h L N. assert (nth_error (fs ++ [g]) j <> None) by congruence. apply nth_error_Some in H. rewrite app_length in H. cbn in H. lia.
        * intros (i & N & Nm & F). assert (Hi : nth_error (fs ++ [g]) i <> None) by congruence. apply nth_error_Some in Hi. rewrite app_length in Hi. cbn in Hi.
          destruct (Nat.eq_dec i (length fs)) as [->|Ni]; [rewrite nth_error_app2, Nat.sub_diag in N by lia; exact N|]. exfalso.
          apply (F (length fs) g); [lia| |exact E]. rewrite nth_error_app2, Nat.sub_diag by lia. reflexivity.
      + rewrite IH. split; intros (i & N & Nm & F); exists i.
        * assert (Hi : nth_error fs i <> None) by congruence. apply nth_error_Some in Hi. split; [rewrite nth_error_app1 by lia; exact N|]. split; [exact Nm|].
          intros j h L Nj. destruct (Nat.lt_ge_cases j (length fs)) as [Lj|Lj]; [rewrite nth_error_app1 in Nj by lia; exact (F j h L Nj)|].
          rewrite nth_error_app2 in Nj by lia. destruct (j - length fs) as [|[|?]]; try discriminate. injection Nj as <-. intros Z. apply str_eqb_eq in Z. congruence.
        * destruct (Nat.lt_ge_cases i (length fs)) as [Li|Li].
          -- rewrite nth_error_app1 in N by lia. split; [exact N|]. split; [exact Nm|]. intros j h L Nj. apply (F j h L). rewrite nth_error_app1; [exact Nj|].
             apply nth_error_Some. congruence.
          -- rewrite nth_error_app2 in N by lia. destruct (i - length fs) as [|[|?]]; try discriminate. injection N as <-. apply str_eqb_eq in Nm. congruence.
  Qed.
  Theorem C100_one_entry t m : fields_by_name types (TStruct t) = Some m -> NoDup (map fst m).
  Proof.
    unfold fields_by_name. destruct (fields types t) as [|f fs]; [discriminate|]. intros X. injection X as <-. exact (puts_keys (f :: fs) [] (NoDup_nil _)).
  Qed.
  (** the two agree on the names in the struct itself; a promoted field is found by GetFieldByName only *)
  Theorem C100_agree t k f : well_formed types -> k <> [] -> k <> blank -> map_get (fields_by_name types (TStruct t)) k = Some f ->
    exists i, get_field_by_name types (TStruct t) k = Done ([i], f) /\ nth_error (fields types t) i = Some f.
  Proof.
    intros W N1 N2 E. apply C100_direct in E. destruct E as (i & N & Nm & _). exists i. split; [|exact N]. apply C100_selector; [assumption..|]. split.
    - change [i] with (@nil nat ++ [i]). econstructor; [constructor|exact N|exact Nm].
    - intros q g H. pose proof (leads_pos _ _ _ _ H). destruct (Nat.eq_dec (length q) 1) as [L|L]; [|left; cbn; lia]. right.
      destruct (leads_direct _ _ _ _ H L) as (j & -> & Nj & Nmj). f_equal. apply (W t j i g f Nj N); congruence.
  Qed.
  Theorem C100_promoted t k p f : get_field_by_name types (TStruct t) k = Done (p, f) -> length p > 1 -> map_get (fields_by_name types (TStruct t)) k = None.
  Proof.
    intros E L. destruct (map_get (fields_by_name types (TStruct t)) k) as [g|] eqn:M; [|reflexivity]. exfalso. apply C100_direct in M. destruct M as (i & N & Nm & _).
    revert E. unfold get_field_by_name, field_by_name. destruct k as [|c k]; [discriminate|]. destruct (first_named (c :: k) 0 (fields types t)) as [[q h]|] eqn:F.
    - intros X. injection X as <- <-. apply first_named_some in F. destruct F as (j & -> & _). cbn in L. lia.
    - destruct (first_named_none _ _ _ F g (nth_error_In _ _ N) Nm).
  Qed.
End Types.

(** ** Cases *)
Definition A : str := [65%Z].
Definition B : str := [66%Z].
Definition Cn : str := [67%Z].
Definition X : str := [88%Z].
Definition Y : str := [89%Z].
Definition int : ty := TElse 0.
(** type t0 struct { A t1; B t2; X int }; type t1 struct { X, Y int }; type t2 struct { Y int; C t3 }; type t3 struct { Z, Y int } with A, B, C embedded,
    B by a pointer *)
Definition ex : list (list field) :=
  [ [Field A true (TStruct 1); Field B true (TPtr (TStruct 2)); Field X false int];
    [Field X false int; Field Y false int];
    [Field Y false int; Field Cn true (TStruct 3)];
    [Field [90%Z] false (TElse 1); Field Y false int] ].
Lemma ex_well_formed : well_formed ex.
Proof.
  intros t i j f g. unfold fields, ex. destruct t as [|[|[|[|t]]]]; cbn [nth]; [| | | |destruct t; destruct i; discriminate];
    (destruct i as [|[|[|i]]]; cbn [nth_error]; try (destruct i; discriminate); intros X1; try discriminate X1; injection X1 as <-;
     destruct j as [|[|[|j]]]; cbn [nth_error]; try (destruct j; discriminate); intros X2; try discriminate X2; injection X2 as <-; cbn; intros; reflexivity || discriminate).
Qed.
(** X is the field of t0 itself, Y is ambiguous (at depth 1 twice, the third at depth 2 is hidden), Z is promoted from depth 2 *)
Theorem C100_nonvacuous : well_formed ex /\
  get_field_by_name ex (TStruct 0) X = Done ([2], Field X false int) /\
  get_field_by_name ex (TStruct 0) Y = Panicked /\
  get_field_by_name ex (TStruct 0) [90%Z] = Done ([1; 1; 0], Field [90%Z] false (TElse 1)) /\
  map_get (fields_by_name ex (TStruct 0)) [90%Z] = None /\
  map_get (fields_by_name ex (TStruct 0)) B = Some (Field B true (TPtr (TStruct 2))) /\
  get_field_by_name ex (TPtr (TStruct 0)) X = Panicked.
Proof. split; [apply ex_well_formed|]. vm_compute. repeat split. Qed.
(** struct { _ int; _ string }: GetFieldByName gives the first blank field, FieldsByName the last one *)
Theorem C100_blank_refuted : ~ forall types t k f, map_get (fields_by_name types (TStruct t)) k = Some f ->
  exists i, get_field_by_name types (TStruct t) k = Done ([i], f).
Proof.
  intros H. destruct (H [[Field blank false (TElse 0); Field blank false (TElse 1)]] 0 blank (Field blank false (TElse 1)) eq_refl) as (i & E). discriminate E.
Qed.
(** a struct that embeds pointers to itself: the search ends *)
Theorem C100_recursive : get_field_by_name [[Field A true (TPtr (TStruct 0)); Field B true (TPtr (TStruct 1))]; [Field A true (TPtr (TStruct 0)); Field X false int]] (TStruct 0) X
  = Done ([1; 1], Field X false int).
Proof. reflexivity. Qed.
