(** C92: To, AnyTo, ToBigOps and ReflectTo choose the right conversion. *)
From Coq Require Import ZArith List QArith Ascii String Lia.
From Verif Require Import Base Conv Float ConvFloat ConvAny ConvAnySpec.
Close Scope Q_scope.
Open Scope Z_scope.

Lemma all_in g : In g all_types. Proof. destruct g as [[]|[]| | | |]; cbn; tauto. Qed.
Lemma same_iff s t : same_type s t = true <-> s = t.
Proof. split; [|intros ->; apply String.eqb_refl]. destruct s as [[]|[]| | | |], t as [[]|[]| | | |]; vm_compute; congruence. Qed.

(** The concatenated names are unambiguous: a pair of different types has its own entry, a pair of equal types has none. *)
Theorem C92_keys s t : find_key keys (type_name s ++ type_name t)%string = if same_type s t then None else Some (s, t).
Proof.
  assert (H : forallb (fun s => forallb (fun t =>
    match find_key keys (type_name s ++ type_name t)%string with
    | None => same_type s t
    | Some (s', t') => negb (same_type s t) && same_type s s' && same_type t t'
    end) all_types) all_types = true) by (vm_compute; reflexivity).
  rewrite forallb_forall in H. specialize (H s (all_in s)). rewrite forallb_forall in H. specialize (H t (all_in t)).
  destruct (find_key keys _) as [[s' t']|].
  - apply andb_prop in H. destruct H as (H & H3). apply andb_prop in H. destruct H as (H1 & H2).
    apply same_iff in H2. apply same_iff in H3. subst. apply Bool.negb_true_iff in H1. rewrite H1. reflexivity.
  - rewrite H. reflexivity.
Qed.

(** Names of declared types: the part before the first dot is the package name, which has no asterisk. *)
Fixpoint before_dot (s : string) : option string :=
  match s with
  | EmptyString => None
  | String c s' => if Ascii.eqb c "."%char then Some EmptyString else option_map (String c) (before_dot s')
  end.
Lemma before_dot_app p r : has "."%char p = false -> before_dot (p ++ "." ++ r)%string = Some p.
Proof.
  induction p as [|c p IH]; [reflexivity|]. cbn [has]. intros H. apply Bool.orb_false_elim in H. destruct H as (H1 & H2).
  change (before_dot (String c (p ++ "." ++ r)) = Some (String c p)). cbn [before_dot]. rewrite Ascii.eqb_sym, H1, (IH H2). reflexivity.
Qed.
Lemma append_assoc a b c : ((a ++ b) ++ c = a ++ (b ++ c))%string.
Proof. induction a as [|x a IH]; [reflexivity|]. change (String x ((a ++ b) ++ c) = String x (a ++ (b ++ c)))%string. rewrite IH. reflexivity. Qed.
Lemma find_declared p n r : has "."%char p = false -> has "*"%char p = false -> find_key keys ((p ++ "." ++ n) ++ r)%string = None.
Proof.
  intros H1 H2.
  assert (K : forallb (fun kst => match before_dot (fst kst) with None => true | Some q => has "*"%char q end) keys = true) by (vm_compute; reflexivity).
  assert (B : before_dot ((p ++ "." ++ n) ++ r)%string = Some p) by (rewrite append_assoc; change (("." ++ n) ++ r)%string with ("." ++ (n ++ r))%string; apply before_dot_app, H1).
  induction keys as [|[k st] l IH]; [reflexivity|]. cbn [forallb fst] in K. apply andb_prop in K. destruct K as (K1 & K2). cbn [find_key].
  destruct (String.eqb_spec ((p ++ "." ++ n) ++ r)%string k) as [E|_]; [|exact (IH K2)].
  exfalso. rewrite <- E, B, H2 in K1. discriminate.
Qed.

Section Entry.
  Variable conv : gtype -> gtype -> gval -> gval -> outcome (option err * gval).
  Notation conv_to := (conv_to conv). Notation any_to := (any_to conv). Notation to_big_ops := (to_big_ops conv). Notation reflect_to := (reflect_to conv).

  Lemma primitive_spec g : primitive g = true <-> ~ big g.
  Proof. unfold big. destruct g; cbn; split; intros; try discriminate; try (intros [H'|[H'|H']]; discriminate); try reflexivity; exfalso; tauto. Qed.
  Lemma under_base t g : under t g -> to_base t = Known g.
  Proof. intros [->|(p & n & -> & P)]; [reflexivity|]. apply primitive_spec in P. cbn [to_base]. rewrite P. reflexivity. Qed.

  (** To converts as the underlying types say. *)
  Theorem C92_to s t gs gt v o : under s gs -> under t gt -> conv_to s t v o = conv gs gt v o.
  Proof.
    intros Us Ut. unfold ConvAny.conv_to. rewrite (under_base s gs Us), (under_base t gt Ut). destruct (same_type gs gt) eqn:E; [reflexivity|].
    rewrite C92_keys, E. cbn [call]. rewrite (proj2 (same_iff gs gs) eq_refl), (proj2 (same_iff gt gt) eq_refl). reflexivity.
  Qed.
  (** AnyTo does what To does with the dynamic type, and returns an error for the types To does not take. *)
  Theorem C92_any_to s t gs gt v o : under s gs -> under t gt -> any_to (Some (s, v)) t o = conv gs gt v o.
  Proof.
    intros [->|(p & n & -> & P)] Ut; cbn [ConvAny.any_to]; [|apply primitive_spec in P; rewrite P]; apply C92_to; try exact Ut; left; reflexivity.
  Qed.
  Theorem C92_any_to_other v t o : (forall str, any_to (Some (Other str, v)) t o = Done (Some err_any_to, o)) /\
    (forall p n g, big g -> any_to (Some (Declared p n g, v)) t o = Done (Some err_any_to, o)).
  Proof. split; [reflexivity|]. intros p n g [-> | [-> | ->]]; reflexivity. Qed.
  (** Finding: AnyTo(nil) panics instead of returning an error. *)
  Theorem C92_any_to_nil_refuted t o : any_to None t o = Panicked. Proof. reflexivity. Qed.

  (** ToBigOps converts the sixteen types. *)
  Theorem C92_to_big_ops s t v o : to_big_ops (Known s) t v o = conv s t v o.
  Proof.
    unfold ConvAny.to_big_ops. destruct (same_type s t) eqn:E; [reflexivity|].
    rewrite C92_keys, E. cbn [call]. rewrite (proj2 (same_iff s s) eq_refl), (proj2 (same_iff t t) eq_refl). reflexivity.
  Qed.
  (** Finding: it panics for every declared type, which its constraint admits and To accepts. *)
  Theorem C92_to_big_ops_declared_refuted p n g t v o : has "."%char p = false -> has "*"%char p = false -> to_big_ops (Declared p n g) t v o = Panicked.
  Proof. intros H1 H2. unfold ConvAny.to_big_ops. cbn [rtype_string]. rewrite find_declared by assumption. reflexivity. Qed.

  (** ReflectTo converts between different types, the target being a pointer to a variable of such a type or one declared from it. *)
  Theorem C92_reflect_to s t gt v old : under t gt -> s <> gt ->
    reflect_to (Some (Known s, v)) (PointerTo t old) =
      match conv s gt v old with Done (e, x) => Done (e, PointerTo t x) | Panicked => Panicked | OutOfFuel => OutOfFuel end.
  Proof.
    intros Ut N. unfold ConvAny.reflect_to. rewrite (under_base t gt Ut). cbn [rtype_string]. rewrite C92_keys.
    assert (E : same_type s gt = false) by (apply Bool.not_true_iff_false; rewrite same_iff; exact N). rewrite E. cbn [call].
    rewrite (proj2 (same_iff s s) eq_refl), (proj2 (same_iff gt gt) eq_refl). reflexivity.
  Qed.
  (** It returns an error and leaves the target alone for everything else it checks ... *)
  Theorem C92_reflect_to_errors : (forall o, reflect_to None o = Done (Some err_src_invalid, o)) /\
    (forall i, reflect_to (Some i) InvalidTarget = Done (Some err_tgt_invalid, InvalidTarget)) /\
    (forall i, reflect_to (Some i) NotPointer = Done (Some err_tgt_ptr, NotPointer)) /\
    (forall i t, reflect_to (Some i) (NilPointer t) = Done (Some err_tgt_nil, NilPointer t)) /\
    (forall i, reflect_to (Some i) BigPointer = Done (Some err_tgt_big, BigPointer)).
  Proof. repeat split; intros; destruct i; reflexivity. Qed.
  (** ... and, finding, for two cases To handles: values of the target's own type and values of declared types. *)
  Theorem C92_reflect_to_same_refuted g t v old : under t g -> reflect_to (Some (Known g, v)) (PointerTo t old) = Done (Some err_lookup, PointerTo t old).
  Proof. intros Ut. unfold ConvAny.reflect_to. rewrite (under_base t g Ut). cbn [rtype_string]. rewrite C92_keys, (proj2 (same_iff g g) eq_refl). reflexivity. Qed.
  Theorem C92_reflect_to_declared_refuted p n g t v old : has "."%char p = false -> has "*"%char p = false ->
    reflect_to (Some (Declared p n g, v)) (PointerTo t old) = Done (Some err_lookup, PointerTo t old).
  Proof. intros H1 H2. unfold ConvAny.reflect_to. change (rtype_string (Declared p n g)) with (p ++ "." ++ n)%string. rewrite find_declared by assumption. reflexivity. Qed.
End Entry.

Example ex_under : under (Declared "main" "Age" (TI KInt8)) (TI KInt8). Proof. right. exists "main"%string, "Age"%string. split; [reflexivity|]. intros [H|[H|H]]; discriminate. Qed.
Example ex_pkg : has "."%char "main" = false /\ has "*"%char "main" = false. Proof. split; reflexivity. Qed.
Example ex_keys : length keys = 240%nat. Proof. reflexivity. Qed.
Example ex_to : conv_to (table (fun _ _ => 0) (fun _ => None) (fun _ _ => []) (fun _ => []) (fun _ => None)) (Declared "main" "Age" (TI KInt8)) (Known (TI KInt)) (VI 5) (VI 0) = Done (None, VI 5).
Proof. reflexivity. Qed.

Print Assumptions C92_keys. Print Assumptions C92_to. Print Assumptions C92_any_to. Print Assumptions C92_any_to_other.
Print Assumptions C92_any_to_nil_refuted. Print Assumptions C92_to_big_ops. Print Assumptions C92_to_big_ops_declared_refuted.
Print Assumptions C92_reflect_to. Print Assumptions C92_reflect_to_errors. Print Assumptions C92_reflect_to_same_refuted.
Print Assumptions C92_reflect_to_declared_refuted.
