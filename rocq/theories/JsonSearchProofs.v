(** Proofs about paths and about the conversions between Values and values of type any. *)
From Verif Require Import Base GoMap Union Rest RestProofs Decimal Json JsonLex JsonSpec JsonSearch.
From Coq Require Import ZifyBool.
Open Scope go_scope.
Open Scope Z_scope.

Lemma span_key_spec s : forall a b, span_key s = (a, b) -> s = a ++ b /\ Forall (fun c => key_char c = true) a /\ match b with [] => True | c :: _ => key_char c = false end.
Proof.
  induction s as [|c s IH]; cbn; intros a b H; [inversion H; auto|]. destruct (key_char c) eqn:K.
  - destruct (span_key s) as [a0 b0]. inversion H; subst. destruct (IH _ _ eq_refl) as (-> & F & N). auto.
  - inversion H; subst. auto.
Qed.
Lemma span_key_app a b : Forall (fun c => key_char c = true) a -> match b with [] => True | c :: _ => key_char c = false end -> span_key (a ++ b) = (a, b).
Proof.
  intros F N. induction F as [|c a K F IH]; cbn.
  - destruct b; cbn; auto. rewrite N. reflexivity.
  - rewrite K, IH. reflexivity.
Qed.
Lemma span_dig_spec s : forall a b, span_digits s = (a, b) -> s = a ++ b /\ Forall digitc a.
Proof.
  induction s as [|c s IH]; cbn; intros a b H; [inversion H; auto|]. destruct (is_digit c) eqn:K.
  - destruct (span_digits s) as [a0 b0]. inversion H; subst. destruct (IH _ _ eq_refl) as (-> & F). split; auto. constructor; auto. unfold digitc, is_digit in *. lia.
  - inversion H; subst. auto.
Qed.
Lemma span_dig_app a c b : Forall digitc a -> ~ digitc c -> span_digits (a ++ c :: b) = (a, c :: b).
Proof.
  intros F N. induction F as [|d a K F IH]; cbn.
  - replace (is_digit c) with false by (unfold is_digit, digitc in *; lia). reflexivity.
  - replace (is_digit d) with true by (unfold is_digit, digitc in *; lia). rewrite IH. reflexivity.
Qed.

Definition step_of (p : part) : step := match p with PKey k => Key k | PIndex d => Index d end.
Definition part_of (s : step) : part := match s with Key k => PKey k | Index d => PIndex d end.
Lemma step_of_part_of s : step_of (part_of s) = s. Proof. destruct s; reflexivity. Qed.
Lemma part_of_step_of s : part_of (step_of s) = s. Proof. destruct s; reflexivity. Qed.

Lemma key_chars k : Forall (fun c => key_char c = true) k <-> ~ In 46 k /\ ~ In 91 k /\ ~ In 93 k.
Proof.
  unfold key_char. rewrite Forall_forall. split.
  - intros H. repeat split; intros I; specialize (H _ I); discriminate.
  - intros (A & B & C) c I. destruct (c =? 46) eqn:E1; [apply Z.eqb_eq in E1; subst; contradiction|].
    destruct (c =? 91) eqn:E2; [apply Z.eqb_eq in E2; subst; contradiction|]. destruct (c =? 93) eqn:E3; [apply Z.eqb_eq in E3; subst; contradiction|]. reflexivity.
Qed.

Lemma match_part_some s p rest : match_part s = Some (p, rest) -> step_ok (step_of p) /\ s = path_text [step_of p] ++ rest /\ match p, rest with PKey _, c :: _ => key_char c = false | _, _ => True end.
Proof.
  destruct s as [|c r]; cbn [match_part]; [discriminate|]. destruct (Z.eqb_spec c 46) as [->|N46].
  - destruct (span_key r) as [k b] eqn:SK. destruct k as [|c0 k]; [discriminate|]. intros H. inversion H; subst.
    destruct (span_key_spec _ _ _ SK) as (-> & F & N). cbn [step_of step_ok path_text flat_map]. rewrite app_nil_r. split; [|auto].
    split; [discriminate|]. apply key_chars; auto.
  - destruct (Z.eqb_spec c 91) as [->|N91]; [|discriminate].
    destruct (span_digits r) as [d b] eqn:SD. destruct d as [|d0 d]; [discriminate|]. destruct b as [|c2 b]; [discriminate|].
    destruct (Z.eqb_spec c2 93) as [->|]; [|discriminate]. intros H. inversion H; subst.
    destruct (span_dig_spec _ _ _ SD) as (-> & F). split; [|split; auto].
    + split; [discriminate|auto].
    + cbn. rewrite app_nil_r, <- app_assoc. reflexivity.
Qed.
Lemma match_part_step st rest : step_ok st -> match rest with [] => True | c :: _ => key_char c = false end ->
  match_part (path_text [st] ++ rest) = Some (part_of st, rest).
Proof.
  intros OK N. destruct st as [k|d]; cbn [path_text flat_map app part_of]; rewrite app_nil_r.
  - destruct OK as [NE K]. cbn [match_part app]. cbn [Z.eqb Pos.eqb]. rewrite span_key_app; [|apply key_chars; auto|auto]. destruct k; [congruence|reflexivity].
  - destruct OK as [NE F]. cbn [match_part app]. cbn [Z.eqb Pos.eqb]. rewrite <- app_assoc. cbn [app]. rewrite span_dig_app; [|auto|unfold digitc; lia].
    destruct d; [congruence|reflexivity].
Qed.
Lemma path_text_cons st p : path_text (st :: p) = path_text [st] ++ path_text p.
Proof. unfold path_text. cbn [flat_map]. rewrite app_nil_r. reflexivity. Qed.
Lemma path_start p : match path_text p with [] => p = [] | c :: _ => key_char c = false end.
Proof. destruct p as [|[k|d] p]; cbn; reflexivity. Qed.

Lemma find_path p : Forall step_ok p -> forall n, (length (path_text p) <= n)%nat -> find_parts n (path_text p) = (map part_of p, []).
Proof.
  induction 1 as [|st p OK F IH]; intros n L; [destruct n; reflexivity|].
  assert (NE : exists c r, path_text (st :: p) = c :: r) by (destruct st; cbn; eauto). destruct NE as (c & r & E).
  destruct n as [|n]; [rewrite E in L; cbn in L; lia|].
  assert (M : match_part (path_text (st :: p)) = Some (part_of st, path_text p)).
  { rewrite path_text_cons. apply match_part_step; auto. generalize (path_start p). destruct (path_text p); auto. }
  rewrite E in *. cbn [find_parts]. rewrite M. rewrite IH; [reflexivity|].
  assert (length (path_text [st] ++ path_text p) <= S n)%nat by (rewrite <- path_text_cons, E; exact L). rewrite app_length in H.
  destruct st; cbn in H; lia.
Qed.
Lemma find_parts_inv n : forall s ps, (length s <= n)%nat -> find_parts n s = (ps, []) -> s = path_text (map step_of ps) /\ Forall step_ok (map step_of ps).
Proof.
  induction n as [|n IH]; intros s ps L H. { destruct s; cbn in *; [|lia]. inversion H; subst. split; [reflexivity|constructor]. }
  destruct s as [|c s]. { cbn in H. inversion H; subst. split; [reflexivity|constructor]. } cbn [find_parts] in H.
  destruct (match_part (c :: s)) as [[p rest]|] eqn:M.
  - destruct (find_parts n rest) as [ps0 l] eqn:FP. inversion H; subst. destruct (match_part_some _ _ _ M) as (OK & E & _).
    destruct (IH rest ps0) as (-> & F); auto.
    { assert (length (c :: s) = length (path_text [step_of p] ++ rest)) by (rewrite E; reflexivity). rewrite app_length in H0. destruct p; cbn in *; lia. }
    cbn [map]. rewrite path_text_cons. split; auto.
  - destruct (find_parts n s) as [ps0 l]. inversion H.
Qed.

Lemma digits_denotes d acc : digits_val d acc = denotes d acc.
Proof. revert acc. induction d; intros acc; cbn; auto. Qed.
Definition lookup_of (s : step) : two str Z := match s with Key k => of2t k | Index d => of2u (denotes d 0) end.
Lemma to_lookups_ok p : Forall step_fits p -> to_lookups (map part_of p) = Some (map lookup_of p).
Proof.
  induction 1 as [|[k|d] p S F IH]; cbn [map part_of to_lookups]; [reflexivity|rewrite IH; reflexivity|].
  unfold string_to_int. rewrite digits_denotes. cbn in S. replace (denotes d 0 <=? 9223372036854775807) with true by lia. rewrite IH. reflexivity.
Qed.
Lemma to_lookups_none p : ~ Forall step_fits p -> to_lookups (map part_of p) = None.
Proof.
  induction p as [|[k|d] p IH]; intros N; cbn [map part_of to_lookups].
  - exfalso. apply N. constructor.
  - rewrite IH; auto. intros F. apply N. constructor; cbn; auto.
  - unfold string_to_int. rewrite digits_denotes. destruct (denotes d 0 <=? 9223372036854775807) eqn:B; auto. rewrite IH; auto. intros F. apply N. constructor; cbn; auto. lia.
Qed.
Lemma denotes_nonneg d : Forall digitc d -> forall acc, 0 <= acc -> 0 <= denotes d acc.
Proof. induction 1 as [|c d D F IH]; intros acc A; cbn; auto. apply IH. unfold digitc in D. lia. Qed.

Lemma mget_lookup (m : list (str * tree)) k : mget str_eqb (map (fun kv => (fst kv, value_of (snd kv))) m) k = option_map value_of (lookup m k).
Proof.
  induction m as [|[k' t] m IH]; cbn; auto. unfold str_eqb at 1. destruct (list_eq_dec Z.eq_dec k k'); cbn; auto.
Qed.
Lemma run_ok p : Forall step_ok p -> forall t,
  run_lookups (map lookup_of p) (value_of t) = Done (match subtree t p with Some t' => (value_of t', None) | None => (zv, Some errNoSuchPath) end).
Proof.
  induction 1 as [|st p OK F IH]; intros t; [reflexivity|]. destruct st as [k|d]; cbn [map lookup_of run_lookups of2t of2u which2 which_eqb].
  - change (get2t (of2t (U := Z) k)) with (Done k). cbn [obind]. destruct t as [m|l|s|s|b| |]; try reflexivity. change (asMap (value_of (JObj m))) with (Done (map (fun kv => (fst kv, value_of (snd kv))) m)). cbn [typ_of value_of jtype_eqb negb obind].
    rewrite mget_lookup. cbn [subtree]. destruct (lookup m k) as [t'|]; cbn [option_map]; [apply IH|reflexivity].
  - change (get2u (of2u (T := str) (denotes d 0))) with (Done (denotes d 0)). cbn [obind]. destruct t as [m|l|s|s|b| |]; try reflexivity. change (asSlice (value_of (JArr l))) with (Done (map value_of l)). cbn [typ_of value_of jtype_eqb negb obind].
    assert (P : 0 <= denotes d 0) by (apply denotes_nonneg; [apply OK|lia]). cbn [subtree]. rewrite map_length.
    destruct (Z.of_nat (length l) >? denotes d 0) eqn:G.
    + replace (denotes d 0 <? 0) with false by lia. rewrite nth_error_map. destruct (nth_error l (Z.to_nat (denotes d 0))) as [t'|] eqn:N; cbn [option_map]; [apply IH|].
      apply nth_error_None in N. lia.
    + replace (nth_error l (Z.to_nat (denotes d 0))) with (@None tree); [reflexivity|]. symmetry. apply nth_error_None. lia.
Qed.

Lemma parse_path_ok p : p <> [] -> Forall step_ok p -> Forall step_fits p -> ParsePath (path_text p) = (Some (run_lookups (map lookup_of p)), None).
Proof.
  intros NE OK FI. unfold ParsePath, parsePath. rewrite find_path by auto. destruct p as [|s p]; [congruence|]. cbn [map]. change (part_of s :: map part_of p) with (map part_of (s :: p)).
  rewrite to_lookups_ok by auto. reflexivity.
Qed.
Lemma parse_path_bad s : ~ (exists p, p <> [] /\ Forall step_ok p /\ Forall step_fits p /\ s = path_text p) -> ParsePath s = (None, Some errIllegalPath).
Proof.
  intros N. unfold ParsePath, parsePath. destruct (find_parts (length s) s) as [ps l] eqn:FP. destruct l; [|reflexivity].
  destruct (find_parts_inv _ _ _ (le_n _) FP) as (E & F). destruct ps as [|p0 ps]; [reflexivity|].
  rewrite <- (map_id (p0 :: ps)). rewrite <- (map_ext _ _ part_of_step_of), <- map_map. rewrite to_lookups_none; [reflexivity|].
  intros FI. apply N. exists (map step_of (p0 :: ps)). split; [discriminate|auto].
Qed.

(** ** Conversions *)
Fixpoint tree_rect' (P : tree -> Prop) (HO : forall m, (forall k t, In (k, t) m -> P t) -> P (JObj m))
  (HA : forall l, (forall t, In t l -> P t) -> P (JArr l)) (HS : forall s, P (JStr s)) (HN : forall s, P (JNum s))
  (HB : forall b, P (JBool b)) (HZ : P JNull) (HI : P JInvalid) (t : tree) {struct t} : P t.
Proof.
  destruct t as [m|l|s|s|b| |]; auto.
  - apply HO. induction m as [|[k0 t0] m IHm]; intros k t I0; [destruct I0|]. destruct I0 as [E|H0]; [|apply (IHm k t H0)].
    injection E; intros E2 _. rewrite <- E2. apply (tree_rect' P HO HA HS HN HB HZ HI t0).
  - apply HA. induction l as [|t0 l IHl]; intros t I0; [destruct I0|]. destruct I0 as [E|H0]; [|apply (IHl t H0)].
    rewrite <- E. apply (tree_rect' P HO HA HS HN HB HZ HI t0).
Qed.

Lemma mset_new {V} (m : list (str * V)) k v : ~ In k (map fst m) -> mset str_eqb m k v = m ++ [(k, v)].
Proof.
  induction m as [|[k' v'] m IH]; intros N; cbn in *; auto.
  destruct (str_eqb k k') eqn:Q. { apply RestProofs.str_eqb_eq in Q. subst. tauto. } rewrite IH; tauto.
Qed.

Lemma toAny_tree t : every keys_distinct t -> toAny (value_of t) = Done (any_of t).
Proof.
  induction t as [m IH|l IH|s|s|b| |] using tree_rect'; intros EV; try reflexivity.
  - inversion EV as [m' ND H|? ? H|? NO]; subst; [|destruct NO]. cbn [value_of toAny of4t check which_eqb obind any_of].
    assert (G : forall m acc, (forall k t, In (k, t) m -> toAny (value_of t) = Done (any_of t)) ->
      NoDup (map fst acc ++ map fst m) ->
      (fix go (m : list (str * value)) (acc : list (str * gany)) : outcome gany :=
             match m with
             | [] => Done (AMap acc)
             | (k, x) :: m' => let! a := toAny x in go m' (mset str_eqb acc k a)
             end) (map (fun kv => (fst kv, value_of (snd kv))) m) acc = Done (AMap (acc ++ map (fun kv => (fst kv, any_of (snd kv))) m))).
    { clear. induction m as [|[k t] m IHm]; intros acc H ND; cbn [map]; [rewrite app_nil_r; reflexivity|]. cbn [fst snd].
      rewrite (H k t) by (left; reflexivity). cbn [obind]. cbn [map fst] in ND. rewrite mset_new.
      - rewrite IHm; [rewrite <- app_assoc; reflexivity|intros k' t' I; apply (H k' t'); right; auto|].
        rewrite map_app. cbn [map fst]. rewrite <- app_assoc. exact ND.
      - apply NoDup_remove_2 in ND. intros I. apply ND. apply in_app_iff. auto. }
    rewrite (G m []); [reflexivity| |exact ND]. intros k t I. apply (IH k t I). apply (H k t I).
  - inversion EV as [? ? H|l' ND H|? NO]; subst; [|destruct NO]. cbn [value_of toAny of4u check which_eqb obind any_of].
    assert (G : forall l acc, (forall t, In t l -> toAny (value_of t) = Done (any_of t)) ->
      (fix go (l : list value) (acc : list gany) : outcome gany :=
             match l with
             | [] => Done (ASlice acc)
             | x :: l' => let! a := toAny x in go l' (acc ++ [a])
             end) (map value_of l) acc = Done (ASlice (acc ++ map any_of l))).
    { clear. induction l as [|t l IHl]; intros acc H; cbn [map]; [rewrite app_nil_r; reflexivity|].
      rewrite (H t) by (left; reflexivity). cbn [obind]. rewrite IHl; [rewrite <- app_assoc; reflexivity|intros t' I; apply H; right; auto]. }
    rewrite (G l []); [reflexivity|]. intros t I. apply (IH t I). apply (H t I).
Qed.

Lemma toValue_tree t : every keys_distinct t -> every has_digit t -> every not_invalid t -> toValue (any_of t) = Done (value_of t, None).
Proof.
  induction t as [m IH|l IH|s|s|b| |] using tree_rect'; intros E1 E2 E3; try reflexivity.
  - inversion E1 as [m' ND H1|? ? ?|? NO]; subst; [|destruct NO]. inversion E2 as [m' _ H2|? ? ?|? NO]; subst; [|destruct NO]. inversion E3 as [m' _ H3|? ? ?|? NO]; subst; [|destruct NO].
    cbn [any_of toValue value_of].
    assert (G : forall m acc, (forall k t, In (k, t) m -> toValue (any_of t) = Done (value_of t, None)) ->
      NoDup (map fst acc ++ map fst m) ->
      (fix go (m : list (str * gany)) (mp : list (str * value)) : outcome (ret value) :=
         match m with
         | [] => Done (mapToValue mp)
         | (k, v) :: m' =>
             let! r := toValue v in
             match r with
             | (_, Some e) => Done (zv, Some e)
             | (jval, None) => go m' (mset str_eqb mp k jval)
             end
         end) (map (fun kv => (fst kv, any_of (snd kv))) m) acc = Done (mkV TObject (of4t (acc ++ map (fun kv => (fst kv, value_of (snd kv))) m)), None)).
    { clear. induction m as [|[k t] m IHm]; intros acc H ND; cbn [map]; [rewrite app_nil_r; reflexivity|]. cbn [fst snd].
      rewrite (H k t) by (left; reflexivity). cbn [obind]. cbn [map fst] in ND. rewrite mset_new.
      - rewrite IHm; [rewrite <- app_assoc; reflexivity|intros k' t' I; apply (H k' t'); right; auto|].
        rewrite map_app. cbn [map fst]. rewrite <- app_assoc. exact ND.
      - apply NoDup_remove_2 in ND. intros I. apply ND. apply in_app_iff. auto. }
    rewrite (G m []); [reflexivity| |exact ND]. intros k t I. apply (IH k t I); [apply (H1 k t I)|apply (H2 k t I)|apply (H3 k t I)].
  - inversion E1 as [? ? ?|l' ND H1|? NO]; subst; [|destruct NO]. inversion E2 as [? ? ?|l' _ H2|? NO]; subst; [|destruct NO]. inversion E3 as [? ? ?|l' _ H3|? NO]; subst; [|destruct NO].
    cbn [any_of toValue value_of].
    assert (G : forall l acc, (forall t, In t l -> toValue (any_of t) = Done (value_of t, None)) ->
      (fix go (l : list gany) (slc : list value) : outcome (ret value) :=
         match l with
         | [] => Done (sliceToValue slc)
         | v :: l' =>
             let! r := toValue v in
             match r with
             | (_, Some e) => Done (zv, Some e)
             | (jval, None) => go l' (slc ++ [jval])
             end
         end) (map any_of l) acc = Done (mkV TArray (of4u (acc ++ map value_of l)), None)).
    { clear. induction l as [|t l IHl]; intros acc H; cbn [map]; [rewrite app_nil_r; reflexivity|].
      rewrite (H t) by (left; reflexivity). cbn [obind]. rewrite IHl; [rewrite <- app_assoc; reflexivity|intros t' I; apply H; right; auto]. }
    rewrite (G l []); [reflexivity|]. intros t I. apply (IH t I); auto.
  - inversion E2 as [| |? _ HD]; subst. destruct HD as (c & I & R). cbn [any_of toValue numberToValue value_of]. unfold number_match.
    replace (existsb is_digit s) with true; [reflexivity|]. symmetry. apply existsb_exists. exists c. split; auto. unfold is_digit. lia.
  - destruct b; reflexivity.
  - inversion E3 as [| |? _ H]; subst. exfalso. apply H. reflexivity.
Qed.

(** Every Value made from values of type any is that of a tree with distinct keys. *)
Lemma toValue_good a : forall v, toValue a = Done (v, None) -> exists t, v = value_of t /\ every keys_distinct t.
Proof.
  enough (G : (forall v, toValue a = Done (v, None) -> exists t, v = value_of t /\ every keys_distinct t) /\ True) by apply G.
  revert a. fix REC 1. intros a. split; auto. intros v. destruct a as [m|l|b| |s|s|s|z|[s|e]]; cbn [toValue].
  - assert (G : forall acc, every keys_distinct (JObj acc) ->
      (fix go (m : list (str * gany)) (mp : list (str * value)) : outcome (ret value) :=
         match m with
         | [] => Done (mapToValue mp)
         | (k, v) :: m' =>
             let! r := toValue v in
             match r with
             | (_, Some e) => Done (zv, Some e)
             | (jval, None) => go m' (mset str_eqb mp k jval)
             end
         end) m (map (fun kv => (fst kv, value_of (snd kv))) acc) = Done (v, None) -> exists t, v = value_of t /\ every keys_distinct t).
    { induction m as [|[k a] m IHm]; intros acc EV H.
      - inversion H; subst. exists (JObj acc). auto.
      - destruct (toValue a) as [[jv [e|]]| |] eqn:T; cbn [obind] in H; try discriminate.
        destruct (proj1 (REC a) jv T) as (t & -> & ET).
        assert (SET : mset str_eqb (map (fun kv => (fst kv, value_of (snd kv))) acc) k (value_of t) = map (fun kv => (fst kv, value_of (snd kv))) (mset str_eqb acc k t)).
        { clear. induction acc as [|[k' t'] acc IH]; cbn; auto. destruct (str_eqb k k'); cbn; [reflexivity|]. rewrite IH. reflexivity. }
        rewrite SET in H. apply (IHm (mset str_eqb acc k t)); auto.
        inversion EV as [m' ND HK|? ? ?|? NO]; subst; [|destruct NO]. apply every_obj.
        + cbn in ND |- *. apply (mset_ok str_eqb (fun a b => RestProofs.str_eqb_eq a b) acc k t ND).
        + intros k1 t1 I1. assert (D : t1 = t \/ In (k1, t1) acc).
          { clear -I1. induction acc as [|[k' t'] acc IH]; cbn in *; [destruct I1 as [E|[]]; inversion E; auto|].
            destruct (str_eqb k k'); cbn in I1; destruct I1 as [E|I1]; auto; [inversion E; auto|]. destruct (IH I1); auto. }
          destruct D as [->|D]; auto. apply (HK k1 t1 D). }
    apply (G []). apply every_obj; [constructor|intros ? ? []].
  - assert (G : forall acc, every keys_distinct (JArr acc) ->
      (fix go (l : list gany) (slc : list value) : outcome (ret value) :=
         match l with
         | [] => Done (sliceToValue slc)
         | v :: l' =>
             let! r := toValue v in
             match r with
             | (_, Some e) => Done (zv, Some e)
             | (jval, None) => go l' (slc ++ [jval])
             end
         end) l (map value_of acc) = Done (v, None) -> exists t, v = value_of t /\ every keys_distinct t).
    { induction l as [|a l IHl]; intros acc EV H.
      - inversion H; subst. exists (JArr acc). auto.
      - destruct (toValue a) as [[jv [e|]]| |] eqn:T; cbn [obind] in H; try discriminate.
        destruct (proj1 (REC a) jv T) as (t & -> & ET).
        replace (map value_of acc ++ [value_of t]) with (map value_of (acc ++ [t])) in H by (rewrite map_app; reflexivity).
        apply (IHl (acc ++ [t])); auto.
        inversion EV as [? ? ?|l' ND HK|? NO]; subst; [|destruct NO]. apply every_arr; [exact Logic.I|]. intros t1 I1. apply in_app_iff in I1 as [I1|[<-|[]]]; auto. }
    apply (G []). apply every_arr; [exact Logic.I|intros ? []].
  - intros H. inversion H; subst. exists (JBool b). split; [destruct b; reflexivity|]. apply every_leaf; exact Logic.I.
  - intros H. inversion H; subst. exists JNull. split; [reflexivity|]. apply every_leaf; exact Logic.I.
  - intros H. inversion H; subst. exists (JStr s). split; [reflexivity|]. apply every_leaf; exact Logic.I.
  - cbn [numberToValue]. destruct (number_match s); intros H; inversion H; subst. exists (JNum s). split; [reflexivity|]. apply every_leaf; exact Logic.I.
  - discriminate.
  - intros H. inversion H; subst. exists (JNum (int_to_string z)). split; [reflexivity|]. apply every_leaf; exact Logic.I.
  - intros H. inversion H; subst. exists (JNum s). split; [reflexivity|]. apply every_leaf; exact Logic.I.
  - discriminate.
Qed.
