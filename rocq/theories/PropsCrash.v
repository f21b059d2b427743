(** C102: a panic in a source or callback that the caller recovers from. *)
From Verif Require Import Base Iter IterSpec IterGen Slice Crash CrashSpec CrashProofs.
Open Scope nat_scope.

Section C102.
  Context {S T : Type} `{ZT : Zero T}.
  Variable nx : pstep S T.

  (** Map: each call of Next of the source answers for one call of Next; an element whose mapper panics is lost, the others
      come through.  Peek likewise. *)
  Theorem C102_map {U} `{Zero U} (f : T -> option U) s l e :
    runs nx s l e -> runs (pnext (p_map nx f)) (ofIter s) (map (after f) l) e.
  Proof.
    revert s. induction l as [|x r IH]; intros s R.
    - destruct (runs_nil _ _ _ R) as (s1 & (n & E) & _). eapply runs_error with (v := zv) (s1 := s1). exists n. intros m M. unfold p_map. rewrite E by auto. reflexivity.
    - destruct (runs_cons _ _ _ _ _ R) as (s1 & (n & E) & R1). cbn [map]. destruct x as [v|]; cbn [after].
      + destruct (f v) as [u|] eqn:F.
        * eapply runs_value; [|apply IH; eauto]. exists n. intros m M. unfold p_map. rewrite E by auto. cbn. rewrite F. reflexivity.
        * eapply runs_panic; [|apply IH; eauto]. exists n. intros m M. unfold p_map. rewrite E by auto. cbn. rewrite F. reflexivity.
      + eapply runs_panic; [|apply IH; eauto]. exists n. intros m M. unfold p_map. rewrite E by auto. reflexivity.
  Qed.
  Theorem C102_peek (f : T -> option unit) s l e :
    runs nx s l e -> runs (pnext (p_peek nx f)) (ofIter s) (map (after (fun v => option_map (fun _ => v) (f v))) l) e.
  Proof.
    revert s. induction l as [|x r IH]; intros s R.
    - destruct (runs_nil _ _ _ R) as (s1 & (n & E) & _). eapply runs_error with (v := zv) (s1 := s1). exists n. intros m M. unfold p_peek. rewrite E by auto. reflexivity.
    - destruct (runs_cons _ _ _ _ _ R) as (s1 & (n & E) & R1). cbn [map]. destruct x as [v|]; cbn [after].
      + destruct (f v) as [u|] eqn:F; cbn [option_map].
        * eapply runs_value; [|apply IH; eauto]. exists n. intros m M. unfold p_peek. rewrite E by auto. cbn. rewrite F. reflexivity.
        * eapply runs_panic; [|apply IH; eauto]. exists n. intros m M. unfold p_peek. rewrite E by auto. cbn. rewrite F. reflexivity.
      + eapply runs_panic; [|apply IH; eauto]. exists n. intros m M. unfold p_peek. rewrite E by auto. reflexivity.
  Qed.
  (** MapError: as Map as long as the mapper returns no error; its first error is final. *)
  Theorem C102_map_error {U} `{Zero U} (f : T -> option (ret U)) s l e :
    runs nx s l e -> Forall (fun x => forall v u e', x = Some v -> f v <> Some (u, Some e')) l ->
    runs (pnext (p_map_error nx f)) (ofIter s) (map (after (fun v => option_map fst (f v))) l) e.
  Proof.
    revert s. induction l as [|x r IH]; intros s R F.
    - destruct (runs_nil _ _ _ R) as (s1 & (n & E) & _). eapply runs_error with (v := zv) (s1 := s1). exists n. intros m M. unfold p_map_error. rewrite E by auto. reflexivity.
    - inversion F as [|? ? F1 F2]; subst. destruct (runs_cons _ _ _ _ _ R) as (s1 & (n & E) & R1). cbn [map]. destruct x as [v|]; cbn [after].
      + destruct (f v) as [[u [e'|]]|] eqn:Q; cbn [option_map fst].
        * exfalso. eapply F1; eauto.
        * eapply runs_value; [|apply IH; eauto]. exists n. intros m M. unfold p_map_error. rewrite E by auto. cbn. rewrite Q. reflexivity.
        * eapply runs_panic; [|apply IH; eauto]. exists n. intros m M. unfold p_map_error. rewrite E by auto. cbn. rewrite Q. reflexivity.
      + eapply runs_panic; [|apply IH; eauto]. exists n. intros m M. unfold p_map_error. rewrite E by auto. reflexivity.
  Qed.
  Theorem C102_map_error_final {U} `{Zero U} (f : T -> option (ret U)) s l v s' u e :
    shows nx s (l ++ [Some v]) s' -> Forall (fun x => forall v u e', x = Some v -> f v <> Some (u, Some e')) l -> f v = Some (u, Some e) ->
    runs (pnext (p_map_error nx f)) (ofIter s) (map (after (fun v => option_map fst (f v))) l) e.
  Proof.
    revert s. induction l as [|x r IH]; intros s R F Q.
    - inversion R as [|? ? s1 ? ? (n & E) A1|]; subst. eapply runs_error with (v := zv) (s1 := s1). exists n. intros m M. unfold p_map_error. rewrite E by auto. cbn. rewrite Q. reflexivity.
    - inversion F as [|? ? F1 F2]; subst. cbn [map]. inversion R as [|? w s1 ? ? (n & E) R1|? s1 ? ? (n & E) R1]; subst; cbn [after].
      + destruct (f w) as [[u' [e'|]]|] eqn:Q'; cbn [option_map fst].
        * exfalso. eapply F1; eauto.
        * eapply runs_value; [|apply IH; eauto]. exists n. intros m M. unfold p_map_error. rewrite E by auto. cbn. rewrite Q'. reflexivity.
        * eapply runs_panic; [|apply IH; eauto]. exists n. intros m M. unfold p_map_error. rewrite E by auto. cbn. rewrite Q'. reflexivity.
      + eapply runs_panic; [|apply IH; eauto]. exists n. intros m M. unfold p_map_error. rewrite E by auto. reflexivity.
  Qed.

  Lemma filter_end (p : T -> option bool) rej s s1 o s2 : shows nx s (map Some rej) s1 -> Forall (fun v => p v = Some false) rej -> ends nx s1 o s2 ->
    match o with Ret (v, None) => p v <> Some false | _ => True end ->
    ends (p_filter nx p) s (match o with
                            | Pan => Pan
                            | Ret (v, None) => if match p v with Some true => true | _ => false end then Ret (v, None) else Pan
                            | Ret (_, Some e) => Ret (zv, Some e)
                            end) s2.
  Proof.
    intros A F E N. unfold p_filter, ends.
    set (body := fun (_ : unit) val => match p val with Some true => Some (inr (val, None)) | Some false => Some (inl tt) | None => None end : option (unit + ret T)).
    assert (FM : fold_may (fun a v => match body a v with Some (inl a') => Some a' | _ => None end) rej tt = Some tt).
    { clear A. induction F as [|v r H F IH]; [reflexivity|]. cbn. unfold body at 1. rewrite H. exact IH. }
    destruct (ploop_end nx body (fun _ e => (zv, Some e)) rej s s1 tt tt o s2
      (match o with Pan => None | Ret (v, None) => if match p v with Some true => true | _ => false end then Some (v, None) else None | Ret (_, Some e) => Some (zv, Some e) end) A FM E) as (n & H).
    { destruct o as [[v [e|]]|]; auto. unfold body. destruct (p v) as [[|]|]; auto; congruence. }
    exists n. intros m M. rewrite H by auto. cbn. destruct o as [[v [e|]]|]; auto. destruct (p v) as [[|]|]; auto.
  Qed.
  (** Filter: the rejected elements are passed over, a panic ends the call it happens in, and the next call goes on behind it. *)
  Theorem C102_filter (p : T -> option bool) s l e :
    runs nx s l e -> runs (pnext (p_filter nx p)) (ofIter s) (flat_map (kept p) l) e.
  Proof.
    intros R. assert (G : forall l s1 rej s, shows nx s (map Some rej) s1 -> Forall (fun v => p v = Some false) rej -> runs nx s1 l e ->
      runs (pnext (p_filter nx p)) (ofIter s) (flat_map (kept p) l) e).
    2: { apply (G l s [] s); auto. constructor. }
    clear. induction l as [|x r IH]; intros s1 rej s A F R.
    - destruct (runs_nil _ _ _ R) as (s2 & E & _). eapply runs_error. exact (filter_end p rej s s1 _ s2 A F E Logic.I).
    - destruct (runs_cons _ _ _ _ _ R) as (s2 & E & R1). cbn [flat_map]. destruct x as [v|]; cbn [kept].
      + destruct (p v) as [[|]|] eqn:Q; cbn [app].
        * pose proof (filter_end p rej s s1 _ s2 A F E ltac:(cbn; congruence)) as E'. cbn in E'. rewrite Q in E'. eapply runs_value; [exact E'|].
          apply (IH s2 [] s2); auto. constructor.
        * apply (IH s2 (rej ++ [v]) s); auto.
          -- rewrite map_app. eapply shows_app; [exact A|]. econstructor; [exact E|constructor].
          -- apply Forall_app; auto.
        * pose proof (filter_end p rej s s1 _ s2 A F E ltac:(cbn; congruence)) as E'. cbn in E'. rewrite Q in E'. eapply runs_panic; [exact E'|].
          apply (IH s2 [] s2); auto. constructor.
      + eapply runs_panic; [exact (filter_end p rej s s1 _ s2 A F E Logic.I)|]. apply (IH s2 [] s2); auto. constructor.
  Qed.

  (** Skip and Limit count values only: a panic of the source uses up none of them. *)
  Theorem C102_limit k s l e : runs nx s l e ->
    runs (pnext (p_limit nx)) (ofIter (k, s)) (take_values k l) (if values l <? k then e else EOI).
  Proof.
    assert (Z0 : forall s (l : list (option T)), runs (pnext (p_limit nx)) (ofIter (0, s)) [] (if values l <? 0 then e else EOI)).
    { intros s0 l0. eapply runs_error with (v := zv) (s1 := (0, s0)). exists 0. intros. reflexivity. }
    revert k s. induction l as [|x r IH]; intros k s R; (destruct k as [|k]; [apply Z0|]).
    - destruct (runs_nil _ _ _ R) as (s1 & (n & E) & _). eapply runs_error with (v := zv) (s1 := (Datatypes.S k, s1)). exists n. intros m M. unfold p_limit. rewrite E by auto. reflexivity.
    - destruct (runs_cons _ _ _ _ _ R) as (s1 & (n & E) & R1). destruct x as [v|]; cbn [take_values].
      + eapply runs_value with (s1 := (k, s1)); [exists n; intros m M; unfold p_limit; rewrite E by auto; reflexivity|].
        specialize (IH k s1 R1). replace (values (Some v :: r) <? Datatypes.S k) with (values r <? k); auto.
      + eapply runs_panic with (s1 := (Datatypes.S k, s1)); [exists n; intros m M; unfold p_limit; rewrite E by auto; reflexivity|]. exact (IH _ _ R1).
  Qed.
  Lemma skip_loop_run l : forall k s s1, shows nx s (map Some l) s1 ->
    exists n, forall m, n <= m -> p_skip_loop nx (length l + k) m s = p_skip_loop nx k m s1.
  Proof.
    induction l as [|v r IH]; intros k s s1 A; cbn in A; inversion A as [|? ? s0 ? ? (n1 & E1) A1|]; subst.
    - exists 0. auto.
    - destruct (IH k _ _ A1) as (n & E). exists (max n n1). intros m M. cbn [length Nat.add p_skip_loop]. rewrite E1 by lia. cbn. apply E. lia.
  Qed.
  Theorem C102_skip k s l e : runs nx s l e -> runs (pnext (p_skip nx)) (ofIter (k, s)) (drop_values k l) e.
  Proof.
    intros R. assert (G : forall l k s1 rej s, shows nx s (map Some rej) s1 -> runs nx s1 l e ->
      runs (pnext (p_skip nx)) (ofIter (length rej + k, s)) (drop_values k l) e).
    2: { apply (G l k s [] s); auto. constructor. }
    clear. induction l as [|x r IH]; intros k s1 rej s A R.
    - destruct (runs_nil _ _ _ R) as (s2 & (n & E) & _). destruct (skip_loop_run rej k s s1 A) as (n0 & E0).
      eapply runs_error with (v := zv) (s1 := (0, s2)). exists (max n n0). intros m M. unfold p_skip. cbn [fst snd]. rewrite E0 by lia.
      destruct k as [|k]; cbn [p_skip_loop]; [cbn|]; rewrite E by lia; reflexivity.
    - destruct (runs_cons _ _ _ _ _ R) as (s2 & E & R1). destruct (skip_loop_run rej k s s1 A) as (n0 & E0). destruct x as [v|]; cbn [drop_values].
      + destruct k as [|k].
        * destruct E as (n & E). eapply runs_value with (s1 := (0, s2)).
          { exists (max n n0). intros m M. unfold p_skip. cbn [fst snd]. rewrite E0 by lia. cbn. rewrite E by lia. reflexivity. }
          apply (IH 0 s2 [] s2); auto. constructor.
        * replace (length rej + Datatypes.S k) with (length (rej ++ [v]) + k) by (rewrite app_length; cbn; lia). apply (IH k s2 (rej ++ [v]) s); auto.
          rewrite map_app. eapply shows_app; [exact A|]. econstructor; [exact E|constructor].
      + destruct E as (n & E). eapply runs_panic with (s1 := (k, s2)).
        { exists (max n n0). intros m M. unfold p_skip. cbn [fst snd]. rewrite E0 by lia. destruct k as [|k]; cbn [p_skip_loop]; [cbn|]; rewrite E by lia; reflexivity. }
        apply (IH k s2 [] s2); auto. constructor.
  Qed.

  (** ** Reductions *)
  Lemma over_done {U} `{Zero U} (f : pstep (bool * S) U) s : (forall fuel, f fuel (true, s) = Done (Ret (zv, Some EOI), (true, s))) ->
    runs (pnext f) (ofIter (true, s)) [] EOI.
  Proof. intros E. eapply runs_error with (v := zv). exists 0. intros. apply E. Qed.

  (** the loop from a state where the source shows values and then something else *)
  Lemma reduce_loop_end {U} `{Zero U} (f : U -> T -> option U) l s s1 u u' o s2 :
    shows nx s (map Some l) s1 -> fold_may f l u = Some u' -> ends nx s1 o s2 ->
    match o with Ret (v, None) => f u' v = None | _ => True end ->
    exists n, forall m, n <= m -> p_reduce_loop nx f u m s =
      Done (match o with Ret (_, Some EOI) => Ret (u', None) | Ret (_, Some e) => Ret (zv, Some e) | _ => Pan end, (true, s2)).
  Proof.
    intros A F E N. unfold p_reduce_loop.
    set (body := fun acc val => option_map inl (f acc val) : option (U + ret U)).
    assert (FM : fold_may (fun a v => match body a v with Some (inl a') => Some a' | _ => None end) l u = Some u').
    { clear - F. revert u F. induction l as [|v r IH]; intros u F; [exact F|]. cbn in *. unfold body at 1. destruct (f u v); [apply IH; exact F|discriminate]. }
    destruct (ploop_end nx body (fun acc e => match e with EOI => (acc, None) | _ => (zv, Some e) end) l s s1 u u' o s2
       (match o with Ret (_, Some e) => Some (match e with EOI => (u', None) | _ => (zv, Some e) end) | _ => None end) A FM E) as (n & E1).
    { destruct o as [[v [e|]]|]; auto. unfold body. rewrite N. reflexivity. }
    exists n. intros m M. fold body. rewrite E1 by auto. cbn. destruct o as [[v [[]|]]|]; reflexivity.
  Qed.

  (** how the source ends for a reduction: the values [vs], then [o] *)
  Lemma reduce_to_ends {U} `{Zero U} (f : U -> T -> option U) ids vs s s1 u' o s2 :
    shows nx s (map Some vs) s1 -> fold_may f vs (hd zv ids) = Some u' -> ends nx s1 o s2 ->
    match o with Ret (v, None) => f u' v = None | _ => True end -> (vs <> [] \/ ids <> [] \/ o = Pan \/ exists v e, o = Ret (v, e) /\ e <> Some EOI) ->
    ends (p_reduce_to nx f ids) (false, s)
      (match o with Ret (_, Some EOI) => Ret (u', None) | Ret (_, Some e) => Ret (zv, Some e) | _ => Pan end) (true, s2).
  Proof.
    intros A F E N C. destruct vs as [|v r]; cbn [map] in A.
    - inversion A; subst. destruct E as (n & E). exists n. intros m M. unfold p_reduce_to. rewrite E by auto. cbn. cbn in F. injection F as F.
      destruct ids as [|i ids']; cbn [hd] in F; subst u'.
      + destruct o as [[v [[]|]]|]; auto; try (exfalso; destruct C as [C|[C|[C|(v' & e & C & D)]]]; congruence); rewrite N; reflexivity.
      + destruct o as [[v [[]|]]|]; auto; rewrite N; reflexivity.
    - inversion A as [|? ? s0 ? ? (n0 & E0) A1|]; subst. cbn in F. destruct (f (hd zv ids) v) as [u1|] eqn:Q; [|discriminate].
      destruct (reduce_loop_end f r s0 s1 u1 u' o s2 A1 F E N) as (n1 & E1). exists (max n0 n1). intros m M. unfold p_reduce_to. rewrite E0 by lia. cbn.
      destruct ids as [|i ids']; cbn [hd] in Q; rewrite Q; apply E1; lia.
  Qed.
  Lemma reduce_to_finish {U} `{Zero U} (f : U -> T -> option U) ids s o s2 : ends (p_reduce_to nx f ids) (false, s) o (true, s2) ->
    match o with
    | Pan => runs (pnext (p_reduce_to nx f ids)) (ofIter (false, s)) [None] EOI
    | Ret (u, None) => runs (pnext (p_reduce_to nx f ids)) (ofIter (false, s)) [Some u] EOI
    | Ret (_, Some e) => runs (pnext (p_reduce_to nx f ids)) (ofIter (false, s)) [] e
    end.
  Proof.
    intros E. destruct o as [[u [e|]]|].
    - eapply runs_error; eauto.
    - eapply runs_value; [exact E|]. apply over_done. reflexivity.
    - eapply runs_panic; [exact E|]. apply over_done. reflexivity.
  Qed.

  (** Finding: ReduceTo after a panic, in the source or in the reducer, whatever came before: the panic, and from then on the
      answer of an empty source, although the rest of the source has not been read. *)
  Theorem C102_reduce_to_panic {U} `{Zero U} (f : U -> T -> option U) ids s vs s1 u' :
    shows nx s (map Some vs) s1 -> fold_may f vs (hd zv ids) = Some u' ->
    (forall s2, ends nx s1 Pan s2 ->
       runs (pnext (p_reduce_to nx f ids)) (ofIter (false, s)) [None] EOI /\
       exists it, ends (pnext (p_reduce_to nx f ids)) (ofIter (false, s)) Pan it /\ src it = (true, s2)) /\
    (forall v s2, ends nx s1 (Ret (v, None)) s2 -> f u' v = None ->
       runs (pnext (p_reduce_to nx f ids)) (ofIter (false, s)) [None] EOI /\
       exists it, ends (pnext (p_reduce_to nx f ids)) (ofIter (false, s)) Pan it /\ src it = (true, s2)).
  Proof.
    intros A F. split; [intros s2 E|intros v s2 E Q].
    - pose proof (reduce_to_ends f ids vs s s1 u' Pan s2 A F E Logic.I ltac:(auto)) as P. split; [exact (reduce_to_finish _ _ _ _ _ P)|].
      eexists. split; [apply ends_next_panic; exact P|reflexivity].
    - pose proof (reduce_to_ends f ids vs s s1 u' (Ret (v, None)) s2 A F E Q ltac:(right; right; right; exists v, None; split; [reflexivity|discriminate])) as P.
      split; [exact (reduce_to_finish _ _ _ _ _ P)|]. eexists. split; [apply ends_next_panic; exact P|reflexivity].
  Qed.
  (** and without a panic the reduction is the fold, as in C15 *)
  Theorem C102_reduce_to_calm {U} `{Zero U} (f : U -> T -> option U) ids s vs e u' :
    runs nx s (map Some vs) e -> fold_may f vs (hd zv ids) = Some u' ->
    (e = EOI -> vs <> [] \/ ids <> [] -> runs (pnext (p_reduce_to nx f ids)) (ofIter (false, s)) [Some u'] EOI) /\
    (e = EOI -> vs = [] -> ids = [] -> runs (pnext (p_reduce_to nx f ids)) (ofIter (false, s)) [] EOI) /\
    (e <> EOI -> runs (pnext (p_reduce_to nx f ids)) (ofIter (false, s)) [] e).
  Proof.
    intros R F. rewrite <- (app_nil_r (map Some vs)) in R. destruct (runs_app _ _ _ _ _ R) as (s1 & A & R1). destruct (runs_nil _ _ _ R1) as (s2 & E & _).
    split; [|split].
    - intros -> C. pose proof (reduce_to_ends f ids vs s s1 u' _ s2 A F E Logic.I ltac:(tauto)) as P. exact (reduce_to_finish _ _ _ _ _ P).
    - intros -> -> ->. inversion A; subst. destruct E as (n & E). eapply runs_error with (v := zv) (s1 := (true, s2)). exists n. intros m M. unfold p_reduce_to. rewrite E by auto. reflexivity.
    - intros N. pose proof (reduce_to_ends f ids vs s s1 u' _ s2 A F E Logic.I ltac:(right; right; right; exists zv, (Some e); split; [reflexivity|congruence])) as P.
      pose proof (reduce_to_finish _ _ _ _ _ P) as Q. destruct e; try congruence; exact Q.
  Qed.

  (** Reduce likewise, with or without an identity *)
  Lemma reduce_with (f : T -> T -> option T) i ids fuel st : p_reduce nx f (i :: ids) fuel st = p_reduce_to nx f (i :: ids) fuel st.
  Proof. reflexivity. Qed.
  Lemma reduce_finish (f : T -> T -> option T) ids s s2 : ends (p_reduce nx f ids) (false, s) Pan (true, s2) ->
    runs (pnext (p_reduce nx f ids)) (ofIter (false, s)) [None] EOI /\
    exists it, ends (pnext (p_reduce nx f ids)) (ofIter (false, s)) Pan it /\ src it = (true, s2).
  Proof.
    intros E. split.
    - eapply runs_panic; [exact E|]. apply over_done. reflexivity.
    - eexists. split; [apply ends_next_panic; exact E|reflexivity].
  Qed.
  Theorem C102_reduce_panic (f : T -> T -> option T) ids s vs s1 s2 :
    shows nx s (map Some vs) s1 ->
    (** what the source or the reducer does after the values [vs] of the source *)
    (ends nx s1 Pan s2 /\ (forall u r, ids ++ vs = u :: r -> fold_may f (skipn (1 - length ids) vs) u <> None)
     \/ exists v u r w, ends nx s1 (Ret (v, None)) s2 /\ ids ++ vs = u :: r /\ fold_may f (skipn (1 - length ids) vs) u = Some w /\ f w v = None) ->
    runs (pnext (p_reduce nx f ids)) (ofIter (false, s)) [None] EOI /\
    exists it, ends (pnext (p_reduce nx f ids)) (ofIter (false, s)) Pan it /\ src it = (true, s2).
  Proof.
    intros A C. apply reduce_finish. destruct ids as [|i ids'].
    - cbn [app length Nat.sub] in C. destruct vs as [|x r].
      + inversion A; subst. destruct C as [((n & E) & _)|(v & u & r & w & _ & D & _)]; [|discriminate].
        exists n. intros m M. unfold p_reduce. rewrite E by auto. reflexivity.
      + cbn in A. inversion A as [|? ? s0 ? ? (n0 & E0) A1|]; subst. cbn [skipn] in C.
        assert (Q : exists w o, fold_may f r x = Some w /\ ends nx s1 o s2 /\ (o = Pan \/ exists v, o = Ret (v, None) /\ f w v = None)).
        { destruct C as [(E & D)|(v & u & r' & w & E & D & F & N)].
          - specialize (D x r eq_refl). destruct (fold_may f r x) as [w|] eqn:F; [|congruence]. exists w, Pan. auto.
          - injection D as -> ->. exists w, (Ret (v, None)). eauto 10. }
        destruct Q as (w & o & F & E & N).
        destruct (reduce_loop_end f r s0 s1 x w o s2 A1 F E ltac:(destruct N as [->|(v & -> & N)]; cbn; auto)) as (n1 & E1).
        exists (max n0 n1). intros m M. unfold p_reduce. rewrite E0 by lia. cbn. rewrite E1 by lia. destruct N as [->|(v & -> & N)]; reflexivity.
    - cbn [length Nat.sub skipn app] in C. replace (1 - Datatypes.S (length ids')) with 0 in C by lia. cbn [skipn] in C.
      assert (Q : exists w o, fold_may f vs (hd zv (i :: ids')) = Some w /\ ends nx s1 o s2 /\ (o = Pan \/ exists v, o = Ret (v, None) /\ f w v = None)).
      { cbn [hd]. destruct C as [(E & D)|(v & u & r' & w & E & D & F & N)].
        - specialize (D _ _ eq_refl). destruct (fold_may f vs i) as [w|] eqn:F; [|congruence]. exists w, Pan. auto.
        - injection D as -> D. exists w, (Ret (v, None)). eauto 10. }
      destruct Q as (w & o & F & E & N).
      pose proof (reduce_to_ends f (i :: ids') vs s s1 w o s2 A F E ltac:(destruct N as [->|(v & -> & N)]; cbn; auto) ltac:(right; left; discriminate)) as P.
      destruct P as (n & P). exists n. intros m M. rewrite reduce_with, P by auto. destruct N as [->|(v & -> & N)]; reflexivity.
  Qed.

  (** ReduceToBool (AllMatch, AnyMatch, NoneMatch): the same for a panic before the deciding element; a panic behind it is never
      reached.  (No assumption on the source behind [s2].) *)
  Lemma bool_ends (p : T -> option bool) i stop vs s s1 o s2 :
    shows nx s (map Some vs) s1 -> Forall (fun v => p v = Some (negb stop)) vs -> ends nx s1 o s2 ->
    match o with Ret (v, None) => p v <> Some (negb stop) | Ret (_, Some _) => False | Pan => True end ->
    ends (p_reduce_bool nx p i stop) (false, s) (match o with Ret (v, None) => match p v with Some b => Ret (b, None) | None => Pan end | _ => Pan end) (true, s2).
  Proof.
    intros A F E N. destruct vs as [|x r].
    - inversion A; subst. destruct E as (n & E). exists n. intros m M. unfold p_reduce_bool. rewrite E by auto. cbn.
      destruct o as [[v [e|]]|]; [contradiction| |reflexivity]. destruct (p v) as [b|] eqn:Q; [|reflexivity].
      destruct b, stop; cbn in *; try reflexivity; congruence.
    - inversion F as [|? ? F1 F2]; subst. cbn in A. inversion A as [|? ? s0 ? ? (n0 & E0) A1|]; subst.
      set (body := fun (_ : bool) val => match p val with
                                          | None => None
                                          | Some result => Some (if Bool.eqb result stop then inr (result, None) else inl result)
                                          end : option (bool + ret bool)).
      assert (FM : fold_may (fun a v => match body a v with Some (inl a') => Some a' | _ => None end) r (negb stop) = Some (negb stop)).
      { clear - F2. induction F2 as [|v r H F IH]; [reflexivity|]. cbn. unfold body at 1. rewrite H. destruct stop; exact IH. }
      destruct (ploop_end nx body (fun result e => match e with EOI => (result, None) | _ => (false, Some e) end) r s0 s1 (negb stop) (negb stop) o s2
        (match o with Ret (v, None) => match p v with Some b => Some (b, None) | None => None end | _ => None end) A1 FM E) as (n & H).
      { destruct o as [[v [e|]]|]; auto; [contradiction|]. unfold body. destruct (p v) as [b|]; [|reflexivity]. destruct b, stop; cbn in *; try reflexivity; congruence. }
      exists (max n0 n). intros m M. unfold p_reduce_bool. rewrite E0 by lia. cbn. rewrite F1.
      replace (Bool.eqb (negb stop) stop) with false by (destruct stop; reflexivity). fold body. rewrite H by lia. cbn.
      destruct o as [[v [e|]]|]; [contradiction| |reflexivity]. destruct (p v); reflexivity.
  Qed.
  Theorem C102_bool_decided (p : T -> option bool) i stop vs v s s2 :
    shows nx s (map Some (vs ++ [v])) s2 -> Forall (fun v => p v = Some (negb stop)) vs -> p v = Some stop ->
    runs (pnext (p_reduce_bool nx p i stop)) (ofIter (false, s)) [Some stop] EOI.
  Proof.
    intros A F Q. rewrite map_app in A. destruct (shows_split _ _ _ _ _ A) as (s1 & A1 & A2). inversion A2 as [|? ? s0 ? ? E A3|]; subst. inversion A3; subst.
    assert (P := bool_ends p i stop vs s s1 _ s2 A1 F E). cbn in P. rewrite Q in P. eapply runs_value; [apply P|].
    - destruct stop; discriminate.
    - apply over_done. reflexivity.
  Qed.
  Theorem C102_bool_panic (p : T -> option bool) i stop vs s s1 s2 :
    shows nx s (map Some vs) s1 -> Forall (fun v => p v = Some (negb stop)) vs ->
    (ends nx s1 Pan s2 \/ exists v, ends nx s1 (Ret (v, None)) s2 /\ p v = None) ->
    runs (pnext (p_reduce_bool nx p i stop)) (ofIter (false, s)) [None] EOI /\
    exists it, ends (pnext (p_reduce_bool nx p i stop)) (ofIter (false, s)) Pan it /\ src it = (true, s2).
  Proof.
    intros A F C. assert (P : ends (p_reduce_bool nx p i stop) (false, s) Pan (true, s2)).
    { destruct C as [E|(v & E & N)].
      - exact (bool_ends p i stop vs s s1 Pan s2 A F E Logic.I).
      - assert (P := bool_ends p i stop vs s s1 _ s2 A F E). cbn in P. rewrite N in P. apply P. discriminate. }
    split; [eapply runs_panic; [exact P|]; apply over_done; reflexivity|]. eexists. split; [apply ends_next_panic; exact P|reflexivity].
  Qed.

  (** ReduceToSlice: the elements collected before the panic are lost *)
  Theorem C102_to_slice_panic vs s s1 s2 : shows nx s (map Some vs) s1 -> ends nx s1 Pan s2 ->
    runs (pnext (p_to_slice nx)) (ofIter (false, s)) [None] EOI /\
    exists it, ends (pnext (p_to_slice nx)) (ofIter (false, s)) Pan it /\ src it = (true, s2).
  Proof.
    intros A E. assert (FM : forall acc, fold_may (fun slc v => match Some (inl (B := ret (list T)) (slc ++ [v])) with Some (inl a') => Some a' | _ => None end) vs acc = Some (acc ++ vs)).
    { clear. induction vs as [|v r IH]; intros acc; cbn; [rewrite app_nil_r; reflexivity|]. rewrite IH, <- app_assoc. reflexivity. }
    destruct (ploop_end nx (fun slc val => Some (inl (slc ++ [val]))) (fun slc e => match e with EOI => (slc, None) | _ => ([], Some e) end) vs s s1 [] _ Pan s2 None A (FM []) E eq_refl) as (n & H).
    assert (P : ends (p_to_slice nx) (false, s) Pan (true, s2)).
    { exists n. intros m M. unfold p_to_slice. rewrite H by auto. reflexivity. }
    split; [eapply runs_panic; [exact P|]; apply over_done; reflexivity|]. eexists. split; [apply ends_next_panic; exact P|reflexivity].
  Qed.
  (** ReduceIntoSlice: they are in the caller's slice, in front of what was there; the same when the panic is that of a slice
      that is too short, which then is full. *)
  Theorem C102_into_slice_panic vs slc s s1 s2 : shows nx s (map Some vs) s1 -> length vs <= length slc ->
    (ends nx s1 Pan s2 \/ exists v, ends nx s1 (Ret (v, None)) s2 /\ length vs = length slc) ->
    runs (pnext (p_into_slice nx)) (ofIter (false, 0, slc, s)) [None] EOI /\
    exists it, ends (pnext (p_into_slice nx)) (ofIter (false, 0, slc, s)) Pan it /\
               src it = (true, length vs, vs ++ skipn (length vs) slc, s2).
  Proof.
    intros A L C.
    set (body := fun (a : nat * list T) val => match set_nth (snd a) (fst a) val with Some slc' => Some (inl (fst a + 1, slc')) | None => None end : option (nat * list T + (ret (list T) * list T))).
    assert (FM : forall ws pre post, length ws <= length post ->
      fold_may (fun a v => match body a v with Some (inl a') => Some a' | _ => None end) ws (length pre, pre ++ post) = Some (length pre + length ws, pre ++ ws ++ skipn (length ws) post)).
    { clear. induction ws as [|v r IH]; intros pre post L; cbn [fold_may length] in *.
      - rewrite Nat.add_0_r. reflexivity.
      - destruct post as [|y post]; cbn in L; [lia|]. unfold body at 1. cbn [fst snd]. rewrite set_nth_app. specialize (IH (pre ++ [v]) post ltac:(lia)).
        rewrite app_length in IH. cbn [length] in IH. rewrite <- app_assoc in IH. cbn [app] in IH. rewrite IH. cbn [skipn]. rewrite <- app_assoc. cbn [app]. replace (length pre + 1 + length r) with (length pre + Datatypes.S (length r)) by lia. reflexivity. }
    specialize (FM vs [] slc L). cbn [app length Nat.add] in FM.
    assert (Q : exists o, ends nx s1 o s2 /\ match o with Ret (v, Some _) => False | Ret (v, None) => length vs = length slc | Pan => True end).
    { destruct C as [E|(v & E & X)]; eexists; (split; [exact E|]); cbn; auto. }
    destruct Q as (o & E & N).
    destruct (ploop_end nx body (fun a e => match e with
                  | EOI => ((snd a, None), snd a)
                  | _ => let slc' := map (fun _ => zv) (snd a) in ((slc', Some e), slc')
                  end) vs s s1 (0, slc) _ o s2 None A FM E) as (n & H).
    { destruct o as [[v [e|]]|]; [contradiction| |reflexivity]. unfold body. cbn [fst snd]. rewrite set_nth_none; [reflexivity|].
      rewrite app_length, skipn_length. lia. }
    assert (P : ends (p_into_slice nx) (false, 0, slc, s) Pan (true, length vs, vs ++ skipn (length vs) slc, s2)).
    { exists n. intros m M. unfold p_into_slice. fold body. rewrite H by auto. reflexivity. }
    split.
    - eapply runs_panic; [exact P|]. eapply runs_error with (v := []). exists 0. intros. reflexivity.
    - eexists. split; [apply ends_next_panic; exact P|reflexivity].
  Qed.

  (** A source without panics, as everywhere else in this development, is one of these. *)
  Theorem C102_calm (f : stepfn S T) s l e : yields f s l e -> runs (calm f) s (map Some l) e.
  Proof.
    intros (s' & A & B). exists s'. split.
    - clear B. induction A as [|s v s1 l s2 (n & E) A IH]; cbn; [constructor|]. econstructor; [|exact IH]. exists n. intros m M. unfold calm. rewrite E by auto. reflexivity.
    - clear A. revert s' e B. cofix C. intros s' e B. inversion B as [? ? s1 (n & E) B1]; subst. econstructor; [|apply C; exact B1]. exists n. intros m M. unfold calm. rewrite E by auto. reflexivity.
  Qed.
End C102.

(** Non-vacuity: a source of 1..4 whose third call panics before it gives 3 (a callback of its own that fails once), a mapper
    that panics on 2; Map, Filter, Skip, Limit and ReduceTo over it. *)
Definition flaky : pstep (nat * bool) nat := fun _ st =>
  let '(i, broken) := st in
  if (4 <? i) then Done (Ret (0, Some EOI), st)
  else if broken && (i =? 3) then Done (Pan, (i, false))
  else Done (Ret (i, None), (i + 1, broken)).
Lemma flaky_runs : runs flaky (1, true) [Some 1; Some 2; None; Some 3; Some 4] EOI.
Proof.
  exists (5, false). split.
  - repeat (first [eapply shows_value; [exists 0; intros; reflexivity|] | eapply shows_panic; [exists 0; intros; reflexivity|]]). constructor.
  - cofix C. econstructor; [|exact C]. exists 0. intros. reflexivity.
Qed.
Example C102_nonvacuous :
  runs (pnext (p_map flaky (fun v => if v =? 2 then None else Some (v * 10)))) (ofIter (1, true)) [Some 10; None; None; Some 30; Some 40] EOI /\
  runs (pnext (p_filter flaky (fun v => Some (Nat.even v)))) (ofIter (1, true)) [Some 2; None; Some 4] EOI /\
  runs (pnext (p_skip flaky)) (ofIter (3, (1, true))) [None; Some 4] EOI /\
  runs (pnext (p_limit flaky)) (ofIter (3, (1, true))) [Some 1; Some 2; None; Some 3] EOI /\
  runs (pnext (p_reduce_to flaky (fun u v => Some (u + v)) [])) (ofIter (false, (1, true))) [None] EOI.
Proof.
  split; [|split; [|split; [|split]]].
  - exact (C102_map flaky _ _ _ _ flaky_runs).
  - exact (C102_filter flaky _ _ _ _ flaky_runs).
  - exact (C102_skip flaky 3 _ _ _ flaky_runs).
  - exact (C102_limit flaky 3 _ _ _ flaky_runs).
  - refine (proj1 (proj1 (C102_reduce_to_panic flaky (fun u v => Some (u + v)) [] (1, true) [1; 2] (3, true) 3 _ eq_refl) (3, false) _)).
    + repeat (eapply shows_value; [exists 0; intros; reflexivity|]). constructor.
    + exists 0. intros. reflexivity.
Qed.
