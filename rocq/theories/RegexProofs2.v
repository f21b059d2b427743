(** Proofs about Regex.v: compiling, and routes. *)
From Verif Require Import Base Rest ReaderSpec JsonSpec Regex RegexSpec RegexProofs.
From Coq Require Import String List.
Import ListNotations.
Open Scope Z_scope.

(** ** What is compiled repeats without bound only what cannot be empty *)
Definition last_ok (l : last_item) : Prop :=
  match l with Operator a _ hi _ => starok a /\ (hi = None -> nullable a = false) | _ => True end.
Definition frame_ok (f : frame) : Prop := Forall starok (falts f) /\ Forall starok (fitems f) /\ last_ok (flast f).
Definition state_ok (s : pstate) : Prop :=
  match s with PState _ f below _ => frame_ok f /\ Forall frame_ok below | _ => True end.

Lemma starok_rpow a n r : starok a -> starok r -> starok (rpow a n r).
Proof. intros A R. induction n; cbn; auto. Qed.
Lemma starok_ropt g a n : starok a -> starok (ropt g a n).
Proof. intros A. induction n; cbn; auto. destruct g; cbn; auto. Qed.
Lemma starok_rrepeat g a lo hi : starok a -> (hi = None -> nullable a = false) -> starok (rrepeat g a lo hi).
Proof.
  intros A N. unfold rrepeat. destruct hi; apply starok_rpow; auto; [apply starok_ropt; auto|]. cbn. auto.
Qed.
Lemma starok_items l : Forall starok l -> starok (items_re l).
Proof.
  intros H. unfold items_re. apply Forall_rev in H. induction H; cbn; auto.
Qed.
Lemma starok_alts l : forall a, starok a -> Forall starok l -> starok (fold_left RAlt l a).
Proof. induction l as [|b l IH]; intros a A H; cbn; auto. inversion H; subst. apply IH; cbn; auto. Qed.
Lemma starok_frame f : frame_ok f -> starok (frame_re f).
Proof.
  intros (A & B & _). unfold frame_re.
  assert (H : Forall starok (rev (items_re (fitems f) :: falts f))) by (apply Forall_rev; constructor; auto using starok_items).
  destruct H; cbn; auto using starok_alts.
Qed.
Lemma push_ok f r l : frame_ok f -> starok r -> last_ok l -> frame_ok (push f r l).
Proof. intros (A & B & _) R L. repeat split; cbn; auto. Qed.
Lemma with_op_ok f below g lo hi counted : frame_ok f -> Forall frame_ok below -> state_ok (with_op f below g lo hi counted).
Proof.
  intros (A & B & C) F. unfold with_op, apply_op. destruct (flast f) eqn:L, (fitems f) as [|a items] eqn:I; cbn; auto;
    inversion B; subst; match goal with |- context[if ?c then _ else _] => destruct c eqn:E end; cbn; auto;
    (split; [|exact F]); apply orb_false_iff in E as [_ E]; 
    (assert (N : hi = None -> nullable a = false) by (intros ->; exact E)); repeat split; cbn; auto using starok_rrepeat.
Qed.
Definition specials : list Z := [40; 41; 124; 91; 92; 46; 94; 36; 42; 43; 63; 123].
Lemma plain_default c f below g : ~ In c specials -> plain_step c f below g = PState MPlain (push f (rchar c) Operand) below g.
Proof.
  intros H. unfold plain_step. destruct c as [|p|p]; try reflexivity.
  do 7 (destruct p as [p|p|]; try reflexivity; try (exfalso; apply H; cbn; tauto)).
Qed.
Lemma plain_step_ok c f below g : frame_ok f -> Forall frame_ok below -> state_ok (plain_step c f below g).
Proof.
  intros H F. pose proof H as (A & B & C).
  assert (D : forall r, starok r -> state_ok (PState MPlain (push f r Operand) below g)) by (intros x X; cbn; split; auto; apply push_ok; cbn; auto).
  destruct (in_dec Z.eq_dec c specials) as [I|N]; [|rewrite plain_default by exact N; apply D; exact Logic.I].
  repeat destruct I as [<-|I]; try destruct I; unfold plain_step; try (apply with_op_ok; assumption); try (apply D; exact Logic.I); try (split; assumption).
  - destruct F as [|f' below H' F]; [exact Logic.I|]. destruct H' as (A' & B' & C'). split; [|exact F]. repeat split; cbn [falts fitems flast]; auto.
    + constructor; auto. apply starok_frame. exact H.
    + destruct (fcounted f); exact Logic.I.
  - split; [|exact F]. repeat split; cbn; auto. constructor; auto using starok_items.
  - destruct (flast f) as [| | |a lo hi ct|] eqn:L; try (apply with_op_ok; assumption). destruct (fitems f) as [|b items]; [apply with_op_ok; assumption|].
    destruct C as [C1 C2]. split; [|exact F]. repeat split; cbn; auto. inversion B; subst. constructor; auto using starok_rrepeat.
Qed.
Lemma perl_ok c r : perl_class c = Some r -> starok r.
Proof.
  unfold perl_class. intros E.
  repeat match type of E with match ?x with _ => _ end = _ => destruct x; try discriminate end; inversion E; exact Logic.I.
Qed.
Lemma step_ok s c : state_ok s -> state_ok (step s c).
Proof.
  destruct s as [m f below g| |]; auto. intros (A & B).
  assert (D : forall m, state_ok (PState m f below g)) by (intros; split; assumption).
  assert (P : forall neg ranges, state_ok (PState MPlain (push f (RClass neg ranges) Operand) below g)).
  { intros; split; auto. apply push_ok; cbn; auto. }
  destruct m; cbn [step].
  - apply plain_step_ok; auto.
  - destruct (_ && _); [apply P|]. destruct (perl_class c) eqn:E; [|exact Logic.I]. split; auto. apply push_ok; cbn; auto. eapply perl_ok; eauto.
  - destruct (c =? 63); [exact Logic.I|]. apply plain_step_ok; [repeat split; constructor|constructor; auto].
  - destruct (c =? 94); [auto|]. destruct (c =? 92); auto.
  - destruct (_ && _); [apply P|]. destruct (c =? 92); auto.
  - destruct (_ && _); [|exact Logic.I]. destruct lo as [lo|]; auto. destruct (c <? lo); [exact Logic.I|auto].
  - destruct (c =? 45); auto. destruct (c =? 93); [apply P|]. destruct (_ && _); [exact Logic.I|]. destruct (c =? 92); auto.
  - destruct (c =? 93); [apply P|]. destruct (c =? 92); auto. destruct (c <? lo); [exact Logic.I|auto].
  - destruct (is_digit c). { destruct (digits_add n c); [auto|exact Logic.I]. } destruct n as [n|]; [|exact Logic.I].
    destruct (c =? 125). { destruct (1000 <? n)%nat; [exact Logic.I|]. apply with_op_ok; auto. } destruct (c =? 44); [auto|exact Logic.I].
  - destruct (is_digit c). { destruct (digits_add m c); [auto|exact Logic.I]. } destruct (c =? 125); [|exact Logic.I]. destruct m as [m|].
    + destruct (_ || _); [exact Logic.I|]. apply with_op_ok; auto.
    + destruct (1000 <? n)%nat; [exact Logic.I|]. apply with_op_ok; auto.
Qed.
Lemma steps_ok l : forall s, state_ok s -> state_ok (fold_left step l s).
Proof. induction l as [|c l IH]; intros s H; cbn; auto. apply IH, step_ok, H. Qed.
Lemma compiled_ok pattern g r : compile pattern = Compiled g r -> starok r.
Proof.
  unfold compile. destruct (existsb _ _); [discriminate|].
  pose proof (steps_ok (List.map fst (cells_of pattern)) pstart ltac:(repeat split; constructor)) as H.
  destruct (fold_left step _ pstart) as [m f below g'| |]; [|discriminate|discriminate]. destruct H as [H _].
  destruct m; try discriminate. destruct below; [|discriminate]. intros E. inversion E; subst. apply starok_frame, H.
Qed.
