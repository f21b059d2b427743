(** Proofs about the line reader on any text. *)
From Verif Require Import Base Iter IterSpec IterProofs Readers ReaderSpec ReaderProofs Writer WriterProofs JsonSpec JsonFaultSpec JsonFaultProofs3 LinesSpec.
From Coq Require Import ZifyBool.
Open Scope Z_scope.

Section Any.
  Context {S : Type}.
  Variable it : stepfn S Z.

  Lemma any_main e s1 s2 (F : fails it s1 e s2) : forall text str cr s, emits it s text s1 ->
    match cuts (kept cr text) with
    | ([], rest) => match translate e with
                    | EOI => match str ++ rest with
                             | [] => exists cr', lr it str cr s ([], Some EOI) (cr', Some EOI, s2)
                             | l => exists cr', lr it str cr s (l, None) (cr', Some EOI, s2)
                             end
                    | _ => exists cr', lr it str cr s ([], Some e) (cr', Some e, s2)
                    end
    | (l :: ls, rest) => exists cr' s', lr it str cr s (str ++ l, None) (cr', None, s') /\
                           behaves it (cr', None, s') (out_lines ls rest e) (translate e)
    end.
  Proof.
    assert (STEP : forall text cr s, emits it s text s1 ->
      match cuts (kept cr text) with
      | ([], rest) => match translate e with
                      | EOI => match [] ++ rest with
                               | [] => exists cr', lr it [] cr s ([], Some EOI) (cr', Some EOI, s2)
                               | l => exists cr', lr it [] cr s (l, None) (cr', Some EOI, s2)
                               end
                      | _ => exists cr', lr it [] cr s ([], Some e) (cr', Some e, s2)
                      end
      | (l :: ls, rest) => exists cr' s', lr it [] cr s ([] ++ l, None) (cr', None, s') /\
                             behaves it (cr', None, s') (out_lines ls rest e) (translate e)
      end -> behaves it (cr, None, s) (out_lines (fst (cuts (kept cr text))) (snd (cuts (kept cr text))) e) (translate e)).
    { intros text cr s E H. destruct (cuts (kept cr text)) as [[|l ls] rest]; cbn [fst snd].
      - unfold out_lines. destruct (translate e) eqn:Te.
        2-7: (assert (Te' : translate e = e) by (destruct e; simpl in Te; try discriminate; reflexivity); rewrite <- Te, Te';
              destruct H as (cr' & H); eexists _, _; split; [constructor|]; exists []; apply lr_returns; exact H).
        destruct rest as [|c rest].
        + destruct H as (cr' & H). eexists _, _; split; [constructor|]; exists []; apply lr_returns; exact H.
        + destruct H as (cr' & H). cbn [app]. eapply behaves_cons; [apply lr_returns; exact H|apply behaves_ended].
      - destruct H as (cr' & s' & R & B).
        replace (out_lines (l :: ls) rest e) with (l :: out_lines ls rest e) by (unfold out_lines; destruct (translate e), rest; reflexivity).
        eapply behaves_cons; [apply lr_returns; exact R|exact B]. }
    induction text as [|c text IH]; intros str cr s E.
    - inversion E; subst. cbn. rewrite app_nil_r. destruct (translate e) eqn:Te.
      2-7: (exists cr; apply lr_end_err; auto; congruence).
      destruct str as [|x str]; exists cr.
      + eapply lr_end_empty; eauto.
      + eapply lr_end_text; eauto. discriminate.
    - inversion E as [|? ? sa ? ? R E']; subst. cbn [kept].
      destruct (Z.eqb_spec c 13) as [->|N13].
      + pose proof (STEP text true sa E' (IH [] true sa E')) as B. cbn [cuts].
        destruct (cuts (kept true text)) as [ls rest]. cbn [fst snd Z.eqb Pos.eqb orb] in *.
        exists true, sa. rewrite app_nil_r. split; auto. apply lr_cr; auto.
      + destruct (Z.eqb_spec c 10) as [->|N10].
        * destruct cr.
          -- pose proof (IH str false sa E') as H. destruct (cuts (kept false text)) as [[|l ls] rest].
             ++ destruct (translate e); try (destruct (str ++ rest)); destruct H as (cr' & H); exists cr'; eapply lr_lf_skip; eauto.
             ++ destruct H as (cr' & s' & H & B). exists cr', s'. split; auto. eapply lr_lf_skip; eauto.
          -- pose proof (STEP text false sa E' (IH [] false sa E')) as B. cbn [cuts].
             destruct (cuts (kept false text)) as [ls rest]. cbn [fst snd Z.eqb Pos.eqb orb] in *.
             exists false, sa. rewrite app_nil_r. split; auto. apply lr_lf; auto.
        * pose proof (IH (str ++ [c]) cr sa E') as H. cbn [cuts].
          destruct (cuts (kept cr text)) as [[|l ls] rest].
          -- destruct (Z.eqb_spec c 13); [congruence|]. destruct (Z.eqb_spec c 10); [congruence|]. cbn [orb].
             rewrite <- app_assoc in H. cbn [app] in H.
             destruct (translate e); try (destruct H as (cr' & H); exists cr'; eapply lr_other; eauto).
             destruct (str ++ c :: rest); destruct H as (cr' & H); exists cr'; eapply lr_other; eauto.
          -- destruct (Z.eqb_spec c 13); [congruence|]. destruct (Z.eqb_spec c 10); [congruence|]. cbn [orb].
             rewrite <- app_assoc in H. cbn [app] in H. destruct H as (cr' & s' & H & B). exists cr', s'. split; auto. eapply lr_other; eauto.
  Qed.
End Any.

Theorem lines_any {S} (it : stepfn S Z) text s s1 e s2 : emits it s text s1 -> fails it s1 e s2 ->
  yields (next (lines_gen it)) (ofIter (lines_init s)) (out_lines (complete_lines text) (incomplete_line text) e) (translate e).
Proof.
  intros E F. pose proof (any_main it e s1 s2 F text [] false s E) as H. unfold complete_lines, incomplete_line.
  assert (B : behaves it (lines_init s) (out_lines (fst (cuts (kept false text))) (snd (cuts (kept false text))) e) (translate e)).
  { destruct (cuts (kept false text)) as [[|l ls] rest]; cbn [fst snd app] in *; unfold lines_init.
    - unfold out_lines. destruct (translate e) eqn:Te.
      2-7: (assert (Te' : translate e = e) by (destruct e; simpl in Te; try discriminate; reflexivity); rewrite <- Te, Te';
            destruct H as (cr' & H); eexists _, _; split; [constructor|]; exists []; apply lr_returns; exact H).
      destruct rest as [|c rest].
      + destruct H as (cr' & H). eexists _, _; split; [constructor|]; exists []; apply lr_returns; exact H.
      + destruct H as (cr' & H). cbn [app]. eapply behaves_cons; [apply lr_returns; exact H|apply behaves_ended].
    - destruct H as (cr' & s' & R & B).
      replace (out_lines (l :: ls) rest e) with (l :: out_lines ls rest e) by (unfold out_lines; destruct (translate e), rest; reflexivity).
      eapply behaves_cons; [apply lr_returns; exact R|exact B]. }
  destruct B as (a & b & E' & F'). eapply ofIter_yields; eauto.
Qed.

(** ** The pieces *)
Lemma cuts_cons_other c text : c <> 13 -> c <> 10 -> cuts (c :: text) =
  match fst (cuts text) with [] => ([], c :: snd (cuts text)) | l :: ls => ((c :: l) :: ls, snd (cuts text)) end.
Proof.
  intros A B. cbn [cuts]. destruct (cuts text) as [ls rest]. cbn [fst snd]. destruct (Z.eqb_spec c 13); [congruence|]. destruct (Z.eqb_spec c 10); [congruence|]. reflexivity.
Qed.
Lemma cuts_cons_end c text : c = 13 \/ c = 10 -> cuts (c :: text) = ([] :: fst (cuts text), snd (cuts text)).
Proof. intros [-> | ->]; cbn [cuts]; destruct (cuts text); reflexivity. Qed.

Definition ender (c : Z) : bool := (c =? 13) || (c =? 10).

Lemma kept_filter : forall text b, filter (fun c => negb (ender c)) (kept b text) = filter (fun c => negb (ender c)) text.
Proof.
  induction text as [|c text IH]; intros b; cbn [kept filter]; auto. unfold ender.
  destruct (Z.eqb_spec c 13) as [->|N]; cbn [filter orb negb Z.eqb Pos.eqb]; [apply IH|].
  destruct (Z.eqb_spec c 10) as [->|M].
  - destruct b; cbn [filter orb negb Z.eqb Pos.eqb]; apply IH.
  - cbn [filter orb negb]. destruct (Z.eqb_spec c 13); [congruence|]. destruct (Z.eqb_spec c 10); [congruence|]. cbn. f_equal. apply IH.
Qed.

Lemma cuts_filter : forall text, concat (fst (cuts text)) ++ snd (cuts text) = filter (fun c => negb (ender c)) text.
Proof.
  induction text as [|c text IH]; cbn [filter]; auto. unfold ender.
  destruct (Z.eqb_spec c 13) as [->|N]; [rewrite cuts_cons_end by auto; exact IH|].
  destruct (Z.eqb_spec c 10) as [->|M]; [rewrite cuts_cons_end by auto; exact IH|]. cbn [orb negb]. rewrite cuts_cons_other by auto.
  destruct (fst (cuts text)) as [|l ls]; cbn [fst snd concat app] in *; f_equal; exact IH.
Qed.

Theorem nothing_lost text : concat (complete_lines text) ++ incomplete_line text = filter (fun c => negb ((c =? 13) || (c =? 10))) text.
Proof. unfold complete_lines, incomplete_line. rewrite cuts_filter. apply kept_filter. Qed.

Lemma cuts_plain : forall text, Forall plain (fst (cuts text)) /\ plain (snd (cuts text)).
Proof.
  assert (P0 : plain []) by (split; intros []).
  assert (PC : forall c l, c <> 13 -> c <> 10 -> plain l -> plain (c :: l)).
  { intros c l A B [P Q]. split; intros [X|X]; congruence || tauto. }
  induction text as [|c text [IH1 IH2]]; [split; auto; constructor|].
  destruct (Z.eq_dec c 13) as [->|N]; [rewrite cuts_cons_end by auto; split; auto; constructor; auto|].
  destruct (Z.eq_dec c 10) as [->|M]; [rewrite cuts_cons_end by auto; split; auto; constructor; auto|].
  rewrite cuts_cons_other by auto. destruct (fst (cuts text)) as [|l ls]; cbn [fst snd].
  - split; auto.
  - inversion IH1; subst. split; auto.
Qed.

(** cutting a text *)
Lemma kept_app : forall p b q, exists b', kept b (p ++ q) = kept b p ++ kept b' q.
Proof.
  induction p as [|c p IH]; intros b q; [exists b; reflexivity|]. cbn [app kept].
  destruct (Z.eqb_spec c 13).
  - destruct (IH true q) as (b' & ->). exists b'. reflexivity.
  - destruct (Z.eqb_spec c 10).
    + destruct (IH false q) as (b' & ->). exists b'. destruct b; reflexivity.
    + destruct (IH b q) as (b' & ->). exists b'. reflexivity.
Qed.

Lemma cuts_app : forall p q, cuts (p ++ q) =
  match fst (cuts q) with
  | [] => (fst (cuts p), snd (cuts p) ++ snd (cuts q))
  | l :: ls => (fst (cuts p) ++ (snd (cuts p) ++ l) :: ls, snd (cuts q))
  end.
Proof.
  induction p as [|c p IH]; intros q.
  - cbn. destruct (cuts q) as [[|l ls] rest]; reflexivity.
  - cbn [app]. destruct (Z.eq_dec c 13) as [->|N]; [|destruct (Z.eq_dec c 10) as [->|M]].
    1-2: (rewrite !cuts_cons_end by auto; rewrite IH; destruct (fst (cuts q)); reflexivity).
    rewrite !cuts_cons_other by auto. rewrite IH. destruct (fst (cuts q)) as [|l ls]; destruct (fst (cuts p)) as [|l' ls']; reflexivity.
Qed.

Theorem cut_lines p q : exists more, complete_lines (p ++ q) = complete_lines p ++ more /\
  starts (incomplete_line p) (hd [] (more ++ [incomplete_line (p ++ q)])).
Proof.
  unfold complete_lines, incomplete_line. destruct (kept_app p false q) as (b' & ->). rewrite cuts_app.
  destruct (fst (cuts (kept b' q))) as [|l ls]; cbn [fst snd].
  - exists []. rewrite app_nil_r. split; auto. cbn. eexists; reflexivity.
  - eexists. split; [reflexivity|]. cbn. eexists; reflexivity.
Qed.

(** ** When the lines are the right ones *)
Lemma plain_kept l : plain l -> forall b q, kept b (l ++ q) = l ++ kept b q.
Proof.
  induction l as [|c l IH]; intros [P Q] b q; auto. cbn [app kept].
  destruct (Z.eqb_spec c 13) as [->|]; [exfalso; apply Q; left; auto|]. destruct (Z.eqb_spec c 10) as [->|]; [exfalso; apply P; left; auto|].
  f_equal. apply IH. split; intros X; [apply P|apply Q]; right; auto.
Qed.
Lemma plain_cuts l : plain l -> cuts l = ([], l).
Proof.
  induction l as [|c l IH]; intros [P Q]; auto.
  rewrite cuts_cons_other; [|intros ->; apply Q; left; auto|intros ->; apply P; left; auto].
  rewrite IH; auto. split; intros X; [apply P|apply Q]; right; auto.
Qed.
Lemma plain_cuts_app l q : plain l -> cuts (l ++ q) = match fst (cuts q) with [] => ([], l ++ snd (cuts q)) | x :: xs => ((l ++ x) :: xs, snd (cuts q)) end.
Proof. intros P. rewrite cuts_app, (plain_cuts l P). reflexivity. Qed.

Lemma cr_safe_plain_iff l b q : plain l -> (cr_safe b (l ++ q) <-> cr_safe b q).
Proof. intros P. split; [apply cr_safe_plain; auto|apply cr_safe_app_plain; auto]. Qed.

Lemma split_length text ls rest : split_lines text ls rest -> forall b, (length (fst (cuts (kept b text))) <= length ls)%nat /\
  (cr_safe b text <-> length (fst (cuts (kept b text))) = length ls) /\ (cr_safe b text -> cuts (kept b text) = (ls, rest)).
Proof.
  induction 1 as [l P|l t text ls rest P T Hc Sp IH]; intros b.
  - pose proof (plain_kept l P b []) as K. rewrite app_nil_r in K. rewrite K. cbn [kept]. rewrite app_nil_r, (plain_cuts l P). cbn.
    assert (cr_safe b l). { pose proof (proj2 (cr_safe_plain_iff l b [] P) (safe_end b)) as X. rewrite app_nil_r in X. exact X. }
    split; [lia|]. split; [split; auto|auto].
  - rewrite (cr_safe_plain_iff l b _ P), (plain_kept l P), (plain_cuts_app l _ P). destruct T; cbn [app kept Z.eqb Pos.eqb].
    + destruct b.
      * destruct (IH false) as (L & _ & _). split; [|split].
        -- destruct (fst (cuts (kept false text))); cbn [fst length] in *; lia.
        -- split; [intros C; inversion C; subst; congruence|]. intros X. destruct (fst (cuts (kept false text))); cbn [fst length] in *; lia.
        -- intros C; inversion C; subst; congruence.
      * destruct (IH false) as (L & (I1 & I2) & E). rewrite cuts_cons_end by auto. cbn [fst snd length]. rewrite app_nil_r. split; [lia|]. split.
        -- split; [intros C; inversion C; subst; try congruence; f_equal; auto|]. intros X. constructor. apply I2. lia.
        -- intros C; inversion C; subst; try congruence. rewrite E by auto. reflexivity.
    + destruct (IH true) as (L & (I1 & I2) & E). rewrite cuts_cons_end by auto. cbn [fst snd length]. rewrite app_nil_r. split; [lia|].
      specialize (Hc eq_refl). split.
      * split; [intros C; inversion C; subst; try congruence; [exfalso; apply Hc; reflexivity|f_equal; auto]|]. intros X. constructor; try assumption. apply I2. lia.
      * intros C; inversion C; subst; try congruence; [exfalso; apply Hc; reflexivity|]. rewrite E by auto. reflexivity.
    + destruct (IH false) as (L & (I1 & I2) & E). rewrite cuts_cons_end by auto. cbn [fst snd length]. rewrite app_nil_r. split; [lia|]. split.
      * split; [intros C; inversion C; subst; try congruence; [f_equal; auto|exfalso; match goal with X : hd_error _ <> _ |- _ => apply X; reflexivity end]|].
        intros X. constructor; try assumption. apply I2. lia.
      * intros C; inversion C; subst; try congruence; [|exfalso; match goal with X : hd_error _ <> _ |- _ => apply X; reflexivity end]. rewrite E by auto. reflexivity.
Qed.

Theorem right_iff text ls rest : split_lines text ls rest ->
  (complete_lines text = ls /\ incomplete_line text = rest <-> cr_safe false text) /\ (length (complete_lines text) <= length ls)%nat.
Proof.
  intros Sp. destruct (split_length text ls rest Sp false) as (L & (I1 & I2) & E). unfold complete_lines, incomplete_line. split; auto. split.
  - intros [A _]. apply I2. rewrite A. reflexivity.
  - intros C. rewrite (E C). auto.
Qed.

(** ** Logs of lines *)
Lemma ended_split eol ls p : os_eol eol -> Forall plain ls -> plain p -> cuts (kept false (ended eol ls ++ p)) = (ls, p).
Proof.
  intros He F P. induction F as [|l ls Pl F IH]; cbn [ended flat_map app].
  - pose proof (plain_kept p P false []) as K. rewrite app_nil_r in K. rewrite K. cbn [kept]. rewrite app_nil_r. apply plain_cuts; auto.
  - rewrite <- !app_assoc, (plain_kept l Pl), (plain_cuts_app l _ Pl). fold (ended eol ls).
    destruct He as [-> | ->]; cbn [app kept Z.eqb Pos.eqb]; rewrite cuts_cons_end by auto; rewrite IH; cbn [fst snd]; rewrite app_nil_r; reflexivity.
Qed.
