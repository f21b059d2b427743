(** C94, the exact syntax of StringToBigRat. *)
From Coq Require Import ZArith List QArith String Lia.
From Verif Require Import Base Float ConvFloat Literal LiteralSpec RatLitSpec RatLitProofs.
Close Scope Q_scope.
Open Scope Z_scope.

Lemma rat_text_eq s q q' : rat_text s q -> (q' == q)%Q -> rat_text s q'.
Proof.
  intros [sg neg a n b d q0 SG A B DZ V|sg neg t base m f t' b x q0 SG M EL I RG V] E.
  - apply (rt_ratio sg neg a n b d); auto. rewrite E. exact V.
  - apply (rt_number sg neg t base m f t' b x); auto. rewrite E. exact V.
Qed.

(** StringToBigRat succeeds with a number exactly if the text stands for it in Go syntax *)
Theorem C94_string_to_bigrat_iff s q : string_to_bigrat s = (None, Some q) <-> Qred q = q /\ rat_text s q.
Proof.
  rewrite <- rat_set_string_iff. unfold string_to_bigrat. destruct (rat_set_string s); split; intros E; try discriminate; congruence.
Qed.
(** every other text gives an error and a nil pointer *)
Theorem C94_string_to_bigrat_refused s : string_to_bigrat s = (Some conv_err, None) <-> forall q, ~ rat_text s q.
Proof.
  unfold string_to_bigrat. destruct (rat_set_string s) as [q|] eqn:E; split; intros H.
  - discriminate.
  - apply rat_set_string_iff in E as (_ & T). destruct (H q T).
  - intros q T. assert (X : rat_set_string s = Some (Qred q)); [|congruence].
    apply rat_set_string_iff. split; [apply Qred_complete, Qred_correct|]. apply (rat_text_eq s q); [exact T|apply Qred_correct].
  - reflexivity.
Qed.
(** a text stands for one number only *)
Theorem C94_rat_text_unique s q q' : rat_text s q -> rat_text s q' -> (q == q')%Q.
Proof.
  assert (K : forall q, rat_text s q -> rat_set_string s = Some (Qred q)).
  { intros r T. apply rat_set_string_iff. split; [apply Qred_complete, Qred_correct|]. apply (rat_text_eq s r); [exact T|apply Qred_correct]. }
  intros A B. apply K in A, B. rewrite A in B. rewrite <- (Qred_correct q), <- (Qred_correct q'). assert (E : Qred q = Qred q') by congruence. rewrite E. reflexivity.
Qed.

Example C94_nonvacuous_syntax :
  rat_text (str "-0x_1F.8p-2") (- 63 # 8) /\ rat_text (str "1_000/0b11") (1000 # 3) /\ rat_text (str "0b1.1e1_0") 15000000000 /\
  string_to_bigrat (str "017/0o_7") = (None, Some (15 # 7)%Q) /\
  Forall (fun s => string_to_bigrat s = (Some conv_err, None))
    [str "1__0"; str "_1"; str "1_"; str "1_.5"; str "1._5"; str "0x_.8"; str "1e5_"; str "1e_5"; str "1e"; str "08/1"; str "1/08"; str "1/-2"; str "1/0"; str "/2"; str "1.5/2"; str "."; str "0x"; str "0x1e+2"; str "1 "; str ""].
Proof.
  repeat split; try (apply C94_string_to_bigrat_iff; vm_compute; reflexivity).
  repeat constructor.
Qed.
