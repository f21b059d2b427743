(** Property C85: SnakeToCamelCase and CamelCaseToSnakeCase. *)
From Coq Require Import ZArith List Bool Lia.
From Verif Require Import Base ReaderSpec Writer CaseConv CaseConvSpec CaseConvProofs.
Import ListNotations.
Open Scope Z_scope.

(** [up] and [lo] stand for unicode.ToUpper and unicode.ToLower outside ASCII: the statements hold whatever they are. *)

(** ** C85. Snake case and camel case *)
(** Words without underscores, of at least one byte, the first of them ASCII, come out in order, run together, with capitals. *)
Theorem C85_snake_to_camel up ws vs : ws <> [] -> Forall2 capitalised ws vs -> Forall (fun w => ~ In 95 w) ws ->
  Forall (fun w => forall c r, w = c :: r -> 0 <= c < 128) ws -> snake_to_camel up (joined ws) = Done (concat vs).
Proof. intros N C U A. unfold snake_to_camel. rewrite split_joined by assumption. rewrite (s2c_words up ws vs) by assumption. reflexivity. Qed.
(** Finding: it panics exactly when a word is empty, also for the empty string, whose result should be the empty string. *)
Theorem C85_snake_panics up s : snake_to_camel up s = Panicked <->
  s = [] \/ (exists t, s = 95 :: t) \/ (exists t, s = t ++ [95]) \/ exists a b, s = a ++ 95 :: 95 :: b.
Proof. unfold snake_to_camel. rewrite (s2c_panics up). apply split_empty_word. Qed.
Theorem C85_snake_total up s : (exists r, snake_to_camel up s = Done r) \/ snake_to_camel up s = Panicked.
Proof.
  destruct (in_dec (list_eq_dec Z.eq_dec) [] (split_us s)) as [I|I].
  - right. apply s2c_panics. exact I.
  - left. apply s2c_done. exact I.
Qed.
(** Finding: the first byte of a word is taken for a character, so a word that begins with a multi-byte character is garbled. *)
Example C85_snake_garbled_refuted up : up 195 = 195 -> snake_to_camel up [195; 169] = Done [195; 131; 169].
Proof. intros E. unfold snake_to_camel, s2c_loop, split_us, upper_rune. cbn. rewrite E. reflexivity. Qed.
(** Camel case words, whose first letter may be small at the start of the name. *)
Theorem C85_camel_to_snake up lo w0 w ws : Forall camel_word (w :: ws) -> capitalised w0 w ->
  exists vs, camel_to_snake up lo (w0 ++ concat ws) = Done (joined vs) /\ Forall2 capitalised vs (w :: ws) /\ Forall snake_word vs.
Proof.
  intros F C. exists (map lowered (w :: ws)). split; [apply c2s_concat; assumption|]. clear C. split.
  - induction F as [|x l X F IH]; cbn [map]; constructor; [apply cap_lowered; exact X|exact IH].
  - induction F as [|x l X F IH]; cbn [map]; constructor; [apply cap_lowered; exact X|exact IH].
Qed.
(** It panics for the empty string only; the result always has small letters and single underscores between words only. *)
Theorem C85_camel_total up lo s : (s = [] /\ camel_to_snake up lo s = Panicked) \/
  exists ws, camel_to_snake up lo s = Done (joined ws) /\ Forall snake_word ws.
Proof.
  destruct s as [|c s]; [left; split; reflexivity|]. right.
  destruct (c2s_total up lo (c :: s) ltac:(discriminate)) as (ws & F & E). exists (map lowered ws). split; [exact E|].
  clear E. induction F as [|x l X F IH]; cbn [map]; constructor; [apply cap_lowered; exact X|exact IH].
Qed.
(** Finding: what is not an ASCII letter is lost. *)
Theorem C85_camel_drops_refuted up lo x c : x <> [] -> ~ capital c -> ~ small c -> camel_to_snake up lo (x ++ [c]) = camel_to_snake up lo x.
Proof. apply c2s_app_other. Qed.
(** Round trips. *)
Theorem C85_snake_round_trip up lo ws : ws <> [] -> Forall snake_word ws ->
  exists c, snake_to_camel up (joined ws) = Done c /\ camel_to_snake up lo c = Done (joined ws).
Proof.
  intros N F. assert (V : exists vs, Forall2 capitalised ws vs /\ Forall camel_word vs /\ map lowered vs = ws).
  { clear N. induction F as [|w ws W F (vs & A & B & C)]; [exists []; repeat constructor|]. destruct (lowered_cap w W) as (v & A' & B' & C').
    exists (v :: vs). split; [constructor; assumption|]. split; [constructor; assumption|]. cbn. rewrite C, C'. reflexivity. }
  destruct V as (vs & A & B & C). exists (concat vs). split.
  - apply C85_snake_to_camel; [exact N|exact A| |].
    + eapply Forall_impl; [|exact F]. apply snake_word_plain.
    + eapply Forall_impl; [|exact F]. intros w (_ & Fw) c r ->. inversion Fw as [|? ? Sc _]; subst. unfold small in Sc. lia.
  - destruct vs as [|v vs]; [inversion A; subst; congruence|]. cbn [concat]. rewrite <- C. apply c2s_concat; [exact B|].
    inversion B as [|? ? (c & r & -> & Cc & Sr) _]; subst. apply cap_other. unfold small, capital in *. lia.
Qed.
Theorem C85_camel_round_trip up lo w ws : Forall camel_word (w :: ws) ->
  exists s, camel_to_snake up lo (concat (w :: ws)) = Done s /\ snake_to_camel up s = Done (concat (w :: ws)).
Proof.
  intros F. assert (Cw : capitalised w w).
  { inversion F as [|? ? (c & r & -> & Cc & Sr) _]; subst. apply cap_other. unfold small, capital in *. lia. }
  destruct (C85_camel_to_snake up lo w w ws F Cw) as (vs & E & A & B). exists (joined vs). split; [exact E|].
  apply C85_snake_to_camel; [inversion A; discriminate|exact A| |].
  - eapply Forall_impl; [|exact B]. apply snake_word_plain.
  - eapply Forall_impl; [|exact B]. intros v (_ & Fw) c r ->. inversion Fw as [|? ? Sc _]; subst. unfold small in Sc. lia.
Qed.
(** "first_name" and "FirstName"; "userID2" *)
Example C85_nonvacuous up lo :
  snake_to_camel up [102;105;114;115;116;95;110;97;109;101] = Done [70;105;114;115;116;78;97;109;101] /\
  camel_to_snake up lo [70;105;114;115;116;78;97;109;101] = Done [102;105;114;115;116;95;110;97;109;101] /\
  camel_to_snake up lo [117;115;101;114;73;68;50] = Done [117;115;101;114;95;105;95;100] /\
  snake_to_camel up [] = Panicked.
Proof. repeat split. Qed.
