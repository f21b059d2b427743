(** Properties C86, C87: package code. *)
From Coq Require Import ZArith List Bool Lia.
From Verif Require Import Base Code CodeSpec.
Import ListNotations.
Open Scope Z_scope.

(** ** C86. Operators, expressions and types *)
(** Every operator is in exactly one class, and the named ones are in the class they are declared in. *)
Theorem C86_classes o : 0 <= o ->
  (is_unary o = true /\ is_binary o = false /\ is_boolean o = false) \/ (is_unary o = false /\ is_binary o = true /\ is_boolean o = false) \/
  (is_unary o = false /\ is_binary o = false /\ is_boolean o = true).
Proof. intros H. unfold is_unary, is_binary, is_boolean, afterBinary, afterUnary. lia. Qed.
Theorem C86_named o : 0 <= o -> (is_unary o = true <-> In o unary_operators) /\ (is_binary o = true <-> In o binary_operators) /\
  (forall o, In o boolean_operators -> is_boolean o = true) /\ NoDup (unary_operators ++ binary_operators ++ boolean_operators).
Proof.
  intros H. split; [|split; [|split]].
  - unfold is_unary, afterUnary, unary_operators, Inc, Dec, Neg, BitNot. cbn [In]. lia.
  - unfold is_binary, binary_operators, Add, Sub, Mul, Div, Concat, BitAnd, BitOr, BitXor, BitShiftLeft, BitShiftRight, BitShiftRightArithmetic, afterBinary, afterUnary.
    cbn [In]. lia.
  - unfold is_boolean, boolean_operators, Not, And, Or, Lesser, LesserEquals, Equals, GreaterEquals, Greater, Ternary, afterBinary, afterUnary. cbn [In]. intros; lia.
  - cbv. repeat (constructor; [cbv; intros C; repeat (destruct C as [C|C]; [discriminate C|]); exact C|]). constructor.
Qed.
(** The constructors give the operator and exactly as many operands as it takes, and panic on a nil operand. *)
Theorem C86_unary_expr {V} o (v : option V) :
  (forall x, v = Some x -> exists e, of_unary_expr o v = Done e /\ op e = o /\ has_operands 1 e [x]) /\ (v = None -> of_unary_expr o v = Panicked).
Proof. split; [intros x ->; eexists; split; [reflexivity|]; repeat split|intros ->; reflexivity]. Qed.
Theorem C86_binary_expr {V} o (a b : option V) :
  (forall x y, a = Some x -> b = Some y -> exists e, of_binary_expr o a b = Done e /\ op e = o /\ has_operands 2 e [x; y]) /\
  (a = None \/ b = None -> of_binary_expr o a b = Panicked).
Proof.
  split; [intros x y -> ->; eexists; split; [reflexivity|]; repeat split|]. intros [-> | ->]; [reflexivity|]. destruct a; reflexivity.
Qed.
(** Boolean expressions: Not takes one operand, Ternary three, all others two; superfluous operands are ignored; a missing or
    nil one is a panic. *)
Theorem C86_boolean_expr {V} o (a : option V) rest : In o boolean_operators ->
  (o = Not -> (forall x, a = Some x -> exists e, of_boolean_expr o a rest = Done e /\ op e = o /\ has_operands 1 e [x]) /\
              (a = None -> of_boolean_expr o a rest = Panicked)) /\
  (o = Ternary -> (forall x y z more, a = Some x -> rest = Some y :: Some z :: more -> exists e, of_boolean_expr o a rest = Done e /\ op e = o /\ has_operands 3 e [x; y; z]) /\
              (a = None \/ (forall y z more, rest <> Some y :: Some z :: more) -> of_boolean_expr o a rest = Panicked)) /\
  (o <> Not -> o <> Ternary -> (forall x y more, a = Some x -> rest = Some y :: more -> exists e, of_boolean_expr o a rest = Done e /\ op e = o /\ has_operands 2 e [x; y]) /\
              (a = None \/ (forall y more, rest <> Some y :: more) -> of_boolean_expr o a rest = Panicked)).
Proof.
  intros I. unfold of_boolean_expr. split; [|split].
  - intros ->. rewrite Z.eqb_refl. split; [intros x ->; eexists; split; [reflexivity|]; repeat split|intros ->; reflexivity].
  - intros ->. change (Ternary =? Not) with false. rewrite Z.eqb_refl. split.
    + intros x y z more -> ->. eexists. split; [reflexivity|]. repeat split.
    + intros [-> |N]; destruct rest as [|[y|] [|[z|] more]]; try reflexivity; destruct a; try reflexivity; exfalso; eapply N; reflexivity.
  - intros N1 N2. replace (o =? Not) with false by lia. replace (o =? Ternary) with false by lia. split.
    + intros x y more -> ->. eexists. split; [reflexivity|]. repeat split.
    + intros [-> |N]; destruct rest as [|[y|] more]; try reflexivity; destruct a; try reflexivity; exfalso; eapply N; reflexivity.
Qed.
Example C86_nonvacuous : of_boolean_expr Ternary (Some 1) [Some 2; Some 3] = Done (Expr Ternary (Some 1) (Some 2) (Some 3)) /\
  of_boolean_expr And (Some 1) [] = Panicked.
Proof. split; reflexivity. Qed.
(** Types are scalar or aggregate, not both: the scalar ones are those named, and no name denotes two types. *)
Theorem C86_type_classes t : 0 <= t ->
  (is_scalar_type t = true <-> In t scalar_types) /\ is_aggregate_type t = negb (is_scalar_type t) /\
  (forall t, In t aggregate_types -> is_aggregate_type t = true) /\ NoDup (scalar_types ++ aggregate_types).
Proof.
  intros H. split; [|split; [|split]].
  - unfold is_scalar_type, afterScalar, scalar_types, Bool, Uint, Uint8, Uint16, Uint32, Uint64, Int, Int8, Int16, Int32, Int64, Float, Double, String_, UUID, Date,
      DateTimeSecs, DateTimeMillis, DurationDays, DurationSecs, DurationMillis. cbn [In]. lia.
  - unfold is_aggregate_type, is_scalar_type, afterScalar; lia.
  - unfold aggregate_types. cbn [In]. unfold is_aggregate_type, JSON, Array, Enum, List_, Map_, Maybe_, Object, Set_. intros; lia.
  - cbv. repeat (constructor; [cbv; intros C; repeat (destruct C as [C|C]; [discriminate C|]); exact C|]). constructor.
Qed.
(** Complete parts make a complete type, with the given parts and the given access level (private by default); a missing part, or
    an enum without constants, is a panic. *)
Theorem C86_types_complete a v k b n ns : complete v -> complete k ->
  (forall t, In t scalar_types -> complete (of_scalar_type t a)) /\ complete (of_json_type a) /\
  (exists r, of_array_type (Some v) b a = Done r /\ complete r) /\ (exists r, of_list_type (Some v) a = Done r /\ complete r) /\
  (exists r, of_map_type (Some k) (Some v) a = Done r /\ complete r) /\ (exists r, of_maybe_type (Some v) a = Done r /\ complete r) /\
  (exists r, of_object_type (Some v) n ns a = Done r /\ complete r) /\ (exists r, of_set_type (Some v) a = Done r /\ complete r) /\
  (ns <> [] -> exists r, of_enum_type n (Some v) ns a = Done r /\ complete r).
Proof.
  intros Cv Ck. split; [intros t B; constructor; exact B|]. split; [apply com_json|].
  do 6 (split; [eexists; split; [reflexivity|]; constructor; assumption|]).
  intros N. destruct ns; [congruence|]. eexists. split; [reflexivity|]. constructor; [discriminate|exact Cv].
Qed.
Theorem C86_types_panic a v b n ns :
  of_array_type None b a = Panicked /\ of_list_type None a = Panicked /\ of_map_type None v a = Panicked /\ of_map_type v None a = Panicked /\
  of_maybe_type None a = Panicked /\ of_object_type None n ns a = Panicked /\ of_set_type None a = Panicked /\
  of_enum_type n None ns a = Panicked /\ of_enum_type n v [] a = Panicked.
Proof. repeat split; try reflexivity; [destruct v; reflexivity|destruct ns; reflexivity]. Qed.
(** Every constructor gives the kind of type it is named after, the parts it was given and the access level asked for. *)
Theorem C86_types_parts a v k b n ns : exists x, asked_access a x /\
  (forall t, of_scalar_type t a = TypeDef x t [] [] [] None None) /\
  of_json_type a = TypeDef x JSON [] [] [] None None /\
  of_array_type (Some v) b a = Done (TypeDef x Array b [] [] None (Some v)) /\
  of_list_type (Some v) a = Done (TypeDef x List_ [] [] [] None (Some v)) /\
  of_map_type (Some k) (Some v) a = Done (TypeDef x Map_ [] [] [] (Some k) (Some v)) /\
  of_maybe_type (Some v) a = Done (TypeDef x Maybe_ [] [] [] None (Some v)) /\
  of_object_type (Some v) n ns a = Done (TypeDef x Object [] n ns None (Some v)) /\
  of_set_type (Some v) a = Done (TypeDef x Set_ [] [] [] None (Some v)) /\
  (ns <> [] -> of_enum_type n (Some v) ns a = Done (TypeDef x Enum [] n ns None (Some v))).
Proof.
  exists (access_of a). split; [split; [intros ->; reflexivity|intros y r ->; reflexivity]|].
  repeat split. intros N. destruct ns; [congruence|reflexivity].
Qed.
(** Values: a literal has no access level; a variable has the one given, if any, and is constant or not as asked; the type must not
    be nil. *)
Theorem C86_values konst t v access :
  of_lit_val (Some t) v = Done (Val None LitVal (Some t) v) /\ of_lit_val None v = Panicked /\ of_var_val konst None v access = Panicked /\
  exists x, of_var_val konst (Some t) v access = Done x /\ val_typ x = Some t /\ val_value x = v /\
    (konst = true -> val_kind x = VarConst) /\ (konst = false -> val_kind x = VarVal) /\
    (access = [] -> val_access x = None) /\ (forall y r, access = y :: r -> val_access x = Some y) /\ NoDup [LitVal; VarVal; VarConst].
Proof.
  split; [reflexivity|]. split; [reflexivity|]. split; [reflexivity|]. eexists. split; [reflexivity|]. cbn. repeat split; try (intros; subst; reflexivity).
  cbv. repeat (constructor; [cbv; intros C; repeat (destruct C as [C|C]; [discriminate C|]); exact C|]). constructor.
Qed.

(** ** C87. BaseGenerator *)
Section Gen.
  Context {F : Type} (fs : filesys F) (clean : path -> path).
  Notation run := (do_calls fs clean).
  (** the state after any history *)
  Let inv (g : generator) (bases : list path) := base_path g = hd_error bases /\ dirs g = None /\ current_dir g = [].
  Lemma set_base_path_gen g f bp : fst (snd (set_base_path fs clean g f bp)) =
    match base_path g with Some _ => g | None => Generator (Some bp) (dirs g) (current_dir g) (srcs g) (current_src g) end.
  Proof.
    unfold set_base_path. destruct (read_dir fs f (clean bp)); [|destruct (mkdir_all fs f (clean bp)) as [ok f1]|]; try reflexivity.
    destruct (remove_all fs f (clean bp)) as [ok f1]. destruct ok; [|reflexivity]. cbn [negb]. destruct (mkdir fs f1 (clean bp)) as [ok2 f2]. reflexivity.
  Qed.
  Lemma dir_gen g f n : dirs g = None -> fst (dir fs clean g f n) = false /\ fst (snd (dir fs clean g f n)) = g.
  Proof.
    intros D. unfold dir. destruct (base_path g) as [b|]; [|split; reflexivity]. rewrite D. destruct (mkdir_all fs f _) as [ok f1]. destruct ok; split; reflexivity.
  Qed.
  Lemma src_gen g f n : base_path (fst (snd (src fs g f n))) = base_path g /\ dirs (fst (snd (src fs g f n))) = dirs g /\
    current_dir (fst (snd (src fs g f n))) = current_dir g.
  Proof.
    unfold src. destruct (existsb _ (srcs g)); [repeat split|]. destruct (create fs f _) as [ok f1]. destruct ok; repeat split.
  Qed.
  Lemma inv_step c g f bases : inv g bases -> inv (fst (snd (do_call fs clean c (g, f)))) (bases ++ base_calls [c]).
  Proof.
    unfold inv. intros (B & D & C). destruct c as [bp|n|n]; cbn [do_call fst snd].
    - rewrite set_base_path_gen. cbn. destruct bases as [|b bases]; cbn in B; rewrite B; cbn; auto.
    - cbn. rewrite app_nil_r. destruct (dir_gen g f n D) as (_ & E). rewrite E. auto.
    - cbn. rewrite app_nil_r. destruct (src_gen g f n) as (E1 & E2 & E3). rewrite E1, E2, E3. auto.
  Qed.
  Lemma inv_run cs : forall g f bases, inv g bases -> inv (fst (snd (run cs (g, f)))) (bases ++ base_calls cs).
  Proof.
    induction cs as [|c cs IH]; intros g f bases Iv; cbn [do_calls]; [cbn; rewrite app_nil_r; exact Iv|].
    pose proof (inv_step c g f bases Iv) as S1. destruct (do_call fs clean c (g, f)) as [ok [g1 f1]] eqn:E. cbn [fst snd] in S1.
    pose proof (IH g1 f1 _ S1) as S2. destruct (run cs (g1, f1)) as [oks w2]. cbn [fst snd] in *.
    replace (base_calls (c :: cs)) with (base_calls [c] ++ base_calls cs) by (unfold base_calls; cbn; rewrite app_nil_r; reflexivity).
    rewrite app_assoc. exact S2.
  Qed.
  Lemma inv_new : inv new_generator [].
  Proof. unfold inv. repeat split. Qed.

  (** GetBasePath answers the first path given to SetBasePath, as given, also when that call panicked; without such a call it panics. *)
  Theorem C87_base_path cs f :
    get_base_path (fst (snd (run cs (new_generator, f)))) = match base_calls cs with p :: _ => Done p | [] => Panicked end.
  Proof.
    destruct (inv_run cs new_generator f [] inv_new) as (B & _). unfold get_base_path. rewrite B. cbn. destruct (base_calls cs); reflexivity.
  Qed.
  (** Finding: setting the base path again is not refused. Whether SetBasePath panics, and what it does to the file system, does not
      depend on the generator at all. *)
  Theorem C87_set_again_refuted g g' f bp : fst (set_base_path fs clean g f bp) = fst (set_base_path fs clean g' f bp) /\
    snd (snd (set_base_path fs clean g f bp)) = snd (snd (set_base_path fs clean g' f bp)).
  Proof.
    unfold set_base_path. destruct (read_dir fs f (clean bp)); [|destruct (mkdir_all fs f (clean bp)) as [ok f1]; split; reflexivity|split; reflexivity].
    destruct (remove_all fs f (clean bp)) as [ok f1]. destruct ok; [|split; reflexivity]. cbn [negb]. destruct (mkdir fs f1 (clean bp)) as [ok2 f2]. split; reflexivity.
  Qed.
  (** Finding: Dir never returns, even when it has created the directory. *)
  Theorem C87_dir_always_panics_refuted cs f n : let w := snd (run cs (new_generator, f)) in
    fst (dir fs clean (fst w) (snd w) n) = false /\
    (forall b, hd_error (base_calls cs) = Some b -> snd (snd (dir fs clean (fst w) (snd w) n)) = snd (mkdir_all fs (snd w) (clean (b ++ slash :: n)))).
  Proof.
    cbn zeta. destruct (inv_run cs new_generator f [] inv_new) as (B & D & _). destruct (snd (run cs (new_generator, f))) as [g f']. cbn [fst snd] in *.
    split; [apply dir_gen; exact D|]. intros b E. cbn [app] in B. unfold dir. rewrite B, E, D. destruct (mkdir_all fs f' _) as [ok f1]. destruct ok; reflexivity.
  Qed.
  (** Finding: Src puts every file into the root directory, whatever the base path. *)
  Theorem C87_src_in_root_refuted cs f n : let w := snd (run cs (new_generator, f)) in
    fst (src fs (fst w) (snd w) n) = true ->
    current_src (fst (snd (src fs (fst w) (snd w) n))) = Some (slash :: n) /\ snd (snd (src fs (fst w) (snd w) n)) = snd (create fs (snd w) (slash :: n)).
  Proof.
    cbn zeta. destruct (inv_run cs new_generator f [] inv_new) as (_ & _ & C). destruct (snd (run cs (new_generator, f))) as [g f']. cbn [fst snd] in *.
    unfold src. destruct (existsb _ (srcs g)); [discriminate|]. rewrite C. cbn [app]. destruct (create fs f' (slash :: n)) as [ok f1].
    destruct ok; [|discriminate]. intros _. split; reflexivity.
  Qed.
  (** A source that has been created is not created again: the second call panics and leaves the file alone. *)
  Lemma srcs_grow cs : forall g f x, current_dir g = [] -> dirs g = None -> In x (srcs g) -> In x (srcs (fst (snd (run cs (g, f))))) /\ current_dir (fst (snd (run cs (g, f)))) = [].
  Proof.
    induction cs as [|c cs IH]; intros g f x C D I; cbn [do_calls]; [auto|].
    destruct (do_call fs clean c (g, f)) as [ok [g1 f1]] eqn:E.
    assert (K : current_dir g1 = [] /\ dirs g1 = None /\ In x (srcs g1)).
    { destruct c as [bp|n|n]; cbn [do_call fst snd] in E.
      - pose proof (set_base_path_gen g f bp) as G. rewrite E in G. cbn in G. subst g1. destruct (base_path g); cbn; auto.
      - destruct (dir_gen g f n D) as (_ & G). rewrite E in G. cbn in G. subst g1. auto.
      - pose proof (src_gen g f n) as (_ & E2 & E3). rewrite E in E2, E3. cbn in E2, E3. rewrite E2, E3. split; [exact C|]. split; [exact D|].
        unfold src in E. destruct (existsb _ (srcs g)); [injection E as <- <- <-; exact I|]. destruct (create fs f _) as [ok' f'].
        destruct ok'; injection E as <- <- <-; [right; exact I|exact I]. }
    destruct K as (K1 & K2 & K3). pose proof (IH g1 f1 x K1 K2 K3) as R. destruct (run cs (g1, f1)) as [oks w2]. exact R.
  Qed.
  Theorem C87_src_once cs1 cs2 f n : let w := snd (run cs1 (new_generator, f)) in
    fst (src fs (fst w) (snd w) n) = true ->
    let w' := snd (run cs2 (snd (src fs (fst w) (snd w) n))) in src fs (fst w') (snd w') n = (false, w').
  Proof.
    cbn zeta. destruct (inv_run cs1 new_generator f [] inv_new) as (_ & D & C). destruct (snd (run cs1 (new_generator, f))) as [g f']. cbn [fst snd] in *.
    intros Ok. assert (K : exists g1 f1, snd (src fs g f' n) = (g1, f1) /\ In ([], n) (srcs g1) /\ current_dir g1 = [] /\ dirs g1 = None).
    { unfold src in *. destruct (existsb _ (srcs g)); [discriminate|]. destruct (create fs f' _) as [ok f1]. destruct ok; [|discriminate].
      eexists _, _. split; [reflexivity|]. cbn. rewrite C, D. auto. }
    destruct K as (g1 & f1 & E & I & C1 & D1). rewrite E. destruct (srcs_grow cs2 g1 f1 ([], n) C1 D1 I) as (I2 & C2).
    destruct (snd (run cs2 (g1, f1))) as [g2 f2]. cbn [fst snd] in *. unfold src. rewrite C2.
    replace (existsb _ (srcs g2)) with true; [reflexivity|]. symmetry. apply existsb_exists. exists ([], n). split; [exact I2|]. cbn.
    unfold path_eqb. destruct (list_eq_dec Z.eq_dec n n); [reflexivity|congruence].
  Qed.
  (** After a SetBasePath that returns, the directory exists and is empty; everything outside it is as before. *)
  Theorem C87_base_dir_empty has g f bp : fs_laws fs has -> fst (set_base_path fs clean g f bp) = true ->
    let f' := snd (snd (set_base_path fs clean g f bp)) in
    has f' (clean bp) /\ (forall q, below (clean bp) q -> ~ has f' q) /\ (forall q, q <> clean bp -> ~ below (clean bp) q -> has f q -> has f' q).
  Proof.
    intros L. cbn zeta. unfold set_base_path. destruct (read_dir fs f (clean bp)) eqn:R.
    - destruct (remove_all fs f (clean bp)) as [ok f1] eqn:E1. destruct ok; [|discriminate]. cbn [negb].
      destruct (mkdir fs f1 (clean bp)) as [ok f2] eqn:E2. cbn [fst snd]. intros ->.
      pose proof (law_remove _ _ L _ _ _ E1) as L1. pose proof (law_mkdir _ _ L _ _ _ E2) as L2. split; [apply L2; auto|]. split.
      + intros q B H. apply L2 in H. destruct H as [H| ->]; [apply L1 in H; tauto|]. destruct B as (r & B).
        assert (Lg : length (clean bp) = length (clean bp ++ slash :: r)) by congruence. rewrite app_length in Lg. cbn in Lg. lia.
      + intros q N1 N2 H. apply L2. left. apply L1. auto.
    - destruct (mkdir_all fs f (clean bp)) as [ok f1] eqn:E1. cbn [fst snd]. intros ->.
      destruct (law_mkdir_all _ _ L _ _ _ E1) as (A1 & A2 & A3). destruct (law_read _ _ L _ _ R) as (B1 & B2).
      split; [exact A1|]. split; [intros q B H; exact (B2 q B (A3 q B H))|]. intros q _ _ H. apply A2. exact H.
    - discriminate.
  Qed.
End Gen.
Lemma path_eqb_iff a b : path_eqb a b = true <-> a = b.
Proof. unfold path_eqb. destruct (list_eq_dec Z.eq_dec a b); split; congruence. Qed.
Lemma below_iff p q : path_eqb (firstn (S (length p)) q) (p ++ [slash]) = true <-> below p q.
Proof.
  rewrite path_eqb_iff. split.
  - intros E. exists (skipn (S (length p)) q). rewrite <- (firstn_skipn (S (length p)) q) at 1. rewrite E, <- app_assoc. reflexivity.
  - intros (r & ->). change (p ++ slash :: r) with (p ++ [slash] ++ r). rewrite app_assoc.
    replace (S (length p)) with (length (p ++ [slash])) by (rewrite app_length; cbn; lia). rewrite firstn_app, Nat.sub_diag, firstn_all. cbn. apply app_nil_r.
Qed.
Theorem C87_laws_nonvacuous : fs_laws list_fs (fun f p => In p f).
Proof.
  constructor.
  - intros f p. unfold list_fs. cbn [read_dir]. destruct (existsb (path_eqb p) f) eqn:E; [discriminate|].
    destruct (existsb (fun q => path_eqb (firstn (S (length p)) q) (p ++ [slash])) f) eqn:E2; [discriminate|]. intros _.
    assert (N : forall (g : path -> bool) l, existsb g l = false -> forall x, In x l -> g x = false).
    { intros g l Ex x I. destruct (g x) eqn:G; [|reflexivity]. exfalso. apply Bool.diff_true_false. rewrite <- Ex. symmetry. apply existsb_exists. eauto. }
    split; [intros I; pose proof (N _ _ E p I) as X; rewrite (proj2 (path_eqb_iff p p) eq_refl) in X; discriminate|].
    intros q B I. pose proof (N _ _ E2 q I) as X. cbn beta in X. rewrite (proj2 (below_iff p q) B) in X. discriminate.
  - intros f p f' E. injection E as <-. split; [left; reflexivity|]. split; [intros q I; right; exact I|]. intros q (r & ->) [I|I]; [|exact I].
    exfalso. assert (Lg : length p = length (p ++ slash :: r)) by congruence. rewrite app_length in Lg. cbn in Lg. lia.
  - intros f p f' E q. injection E as <-. cbn. intuition congruence.
  - intros f p f' E q. injection E as <-. rewrite filter_In. rewrite negb_true_iff, orb_false_iff. split.
    + intros (I & N1 & N2). split; [exact I|]. split.
      * intros ->. rewrite (proj2 (path_eqb_iff p p) eq_refl) in N1. discriminate.
      * intros B. pose proof (proj2 (below_iff p q) B) as X. cbn in X, N2. congruence.
    + intros (I & N1 & N2). split; [exact I|]. split.
      * destruct (path_eqb q p) eqn:X; [apply path_eqb_iff in X; contradiction|reflexivity].
      * match goal with |- ?b = false => destruct b eqn:X end; [exfalso; apply N2, below_iff; exact X|reflexivity].
Qed.
(** A generator for "a" that is given the base path "b", a directory with contents, wipes it, returns, and still answers "a". *)
Example C87_wipes_refuted :
  do_calls list_fs (fun p => p) [CallBase [97]; CallBase [98]] (new_generator, [[98]; [98; 47; 99]]) =
    ([true; true], (Generator (Some [97]) None [] [] None, [[98]; [97]])) /\
  do_calls list_fs (fun p => p) [CallBase [97]; CallDir [100]; CallSrc [101]; CallSrc [101]] (new_generator, []) =
    ([true; false; true; false], (Generator (Some [97]) None [] [([], [101])] (Some [47; 101]), [[47; 101]; [97; 47; 100]; [97]])).
Proof. split; vm_compute; reflexivity. Qed.
