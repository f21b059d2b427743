From Verif Require Import Base SliceMem SliceMemProofs Funcs FuncsSpec FuncsProofs Rest RestSpec.
Open Scope nat_scope.

Section P.
  Context {regex handler : Type}.
  Variables (compile : str -> option regex) (find : regex -> str -> option (list str)).
  Notation entry := (entry regex handler).
  Context {ZE : Zero entry}.
  Variable ex : nat -> nat -> nat.
  Notation stp := (step compile find ex).
  Notation runs := (run compile find ex).

  Lemma str_eqb_eq a b : str_eqb a b = true <-> a = b.
  Proof. unfold str_eqb. destruct (list_eq_dec Z.eq_dec a b); split; congruence. Qed.

  (** appending to [b] leaves the elements of [a] alone *)
  Definition below (a b : slice) : Prop :=
    match a, b with Some x, Some y => arr x <> arr y \/ (off x = off y /\ len x <= len y) | _, _ => True end.

  Lemma add_below (m : mem entry) s v m' s' a : valid m s -> valid m a -> below a s -> slice_add ex m s v = (m', s') ->
    valid m' a /\ contents m' a = contents m a /\ below a s' /\ below s s' /\ below a s.
  Proof.
    intros Vs Va B E. pose proof (slice_add_spec ex m s v m' s' Vs E) as (Vs' & C & N & F & FR & _).
    assert (LEN : slen s' = S (slen s)).
    { rewrite <- (contents_length m' s' Vs'), C, app_length, (contents_length m s Vs). simpl. lia. }
    split; [eapply frame_valid; eauto|]. split.
    { eapply frame_contents; eauto. intros c i Ca Sp. destruct a as [x|], s as [y|]; simpl in *; try tauto.
      destruct B as [B|(B1 & B2)]; [|]; destruct Ca as (-> & ?), Sp as (? & -> & ?); [congruence|]. lia. }
    assert (K : forall a, valid m a -> below a s -> below a s').
    { clear - FR LEN. intros a Va B. destruct s' as [y'|]; [|destruct a; exact Logic.I]. destruct a as [x|]; [|exact Logic.I].
      destruct FR as [FR|(h & h' & -> & E & A & O)].
      - left. unfold fresh in FR. simpl in FR, Va. lia.
      - injection E as <-. simpl in *. rewrite A, O. destruct B as [B|(B1 & B2)]; [left; auto|right; split; [auto|lia]]. }
    split; [apply K; auto|]. split; [|auto]. apply K; auto. destruct s; simpl; auto.
  Qed.

  Definition snap_ok (x : mux regex handler) (a : slice) : Prop :=
    valid (xmem x) a /\ below a (xhandlers x) /\ forall t s', xpend x t = Some s' -> below a s'.
  Definition inv (x : mux regex handler) (pend : option (nat * entry)) (done : list entry) : Prop :=
    valid (xmem x) (xhandlers x) /\ contents (xmem x) (xhandlers x) = done /\
    match pend with
    | None => forall t, xpend x t = None
    | Some (t, en) => exists s', xpend x t = Some s' /\ valid (xmem x) s' /\ contents (xmem x) s' = done ++ [en] /\
        (forall t' s, xpend x t' = Some s -> t' = t)
    end /\
    snap_ok x (xhandlers x) /\
    (forall r rq hs i b, xreq x r = Some (Running rq hs i b) -> snap_ok x hs).

  Lemma put_eq {A} (f : nat -> option A) k v : put f k v k = v.
  Proof. unfold put. rewrite Nat.eqb_refl. reflexivity. Qed.
  Lemma put_neq {A} (f : nat -> option A) k v j : j <> k -> put f k v j = f j.
  Proof. intros N. unfold put. apply Nat.eqb_neq in N. rewrite N. reflexivity. Qed.

  (** what one event does to the specification's state *)
  Definition spec_step (pend : option (nat * entry)) (done : list entry) (e : event handler) : option (option (nat * entry) * list entry) :=
    match e with
    | Handle1 t method pattern h =>
        match handle_check compile method pattern h with
        | inl en => match pend with None => Some (Some (t, en), done) | Some _ => None end
        | inr _ => Some (pend, done)
        end
    | Handle2 t =>
        match pend with
        | Some (t', en) => if t =? t' then Some (None, done ++ [en]) else Some (pend, done)
        | None => Some (pend, done)
        end
    | _ => Some (pend, done)
    end.
  Lemma registered_cons pend done e es : registered compile pend done (e :: es) =
    match spec_step pend done e with Some (p, d) => registered compile p d es | None => None end.
  Proof.
    destruct e as [t me pa h|t|r rq|r]; simpl; auto.
    - destruct (handle_check compile me pa h); auto. destruct pend; auto.
    - destruct pend as [[t' en]|]; auto. destruct (t =? t'); auto.
  Qed.

  Lemma step_inv x pend done e p d : inv x pend done -> spec_step pend done e = Some (p, d) ->
    inv (stp x e) p d /\ (forall a, snap_ok x a -> snap_ok (stp x e) a /\ contents (xmem (stp x e)) a = contents (xmem x) a).
  Proof.
    intros (V & C & PE & SH & RQ) SS. destruct e as [t me pa h|t|r rq|r]; cbn [spec_step step] in *.
    - destruct (handle_check compile me pa h) as [en|er] eqn:HC.
      2: { injection SS as <- <-. split; [split; [auto|split; [auto|split; [auto|split; auto]]]|auto]. }
      destruct pend as [pe|]; [discriminate|]. injection SS as <- <-.
      destruct (slice_add ex (xmem x) (xhandlers x) en) as [m' s'] eqn:EA.
      pose proof (slice_add_spec ex _ _ _ _ _ V EA) as (Vs' & Cs' & _).
      assert (K : forall a, snap_ok x a -> snap_ok (Mux m' (xhandlers x) (put (xpend x) t (Some s')) (xreq x)) a /\ contents m' a = contents (xmem x) a).
      { intros a (Va & B & _). destruct (add_below _ _ _ _ _ a V Va B EA) as (V1 & C1 & B1 & _). split; auto. split; [exact V1|]. split; [exact B|].
        intros t' s2. cbn [xpend]. unfold put. destruct (t' =? t); [intros E; injection E as <-; auto|rewrite PE; discriminate]. }
      split; [|exact K]. destruct (K _ SH) as (SH' & CH). split; [exact (proj1 SH')|]. split; [cbn [xmem xhandlers]; congruence|].
      split; [|split; [exact SH'|]].
      + exists s'. cbn [xpend xmem]. rewrite put_eq. split; auto. split; auto. split; [congruence|].
        intros t' s2. unfold put. destruct (t' =? t) eqn:TT; [apply Nat.eqb_eq in TT; auto|rewrite PE; discriminate].
      + intros r rq hs i b E. apply K. eapply RQ; eauto.
    - destruct pend as [[t' en]|].
      + destruct PE as (s' & P1 & P2 & P3 & P4). destruct (t =? t') eqn:TT.
        * apply Nat.eqb_eq in TT. subst t'. injection SS as <- <-. rewrite P1.
          assert (K : forall a, snap_ok x a -> snap_ok (Mux (xmem x) s' (put (xpend x) t None) (xreq x)) a).
          { intros a (Va & B & BP). split; [auto|]. split; [cbn [xhandlers]; eapply BP; eauto|].
            intros t'' s2. cbn [xpend]. unfold put. destruct (t'' =? t) eqn:T2; [discriminate|]. intros E. apply P4 in E. apply Nat.eqb_neq in T2. congruence. }
          split; [|intros a Sa; split; [apply K; auto|reflexivity]].
          split; [auto|]. split; [auto|]. split; [|split].
          { intros t''. cbn [xpend]. unfold put. destruct (t'' =? t) eqn:T2; auto. destruct (xpend x t'') eqn:E; auto. apply P4 in E. apply Nat.eqb_neq in T2. congruence. }
          { split; [auto|]. split; [cbn [xhandlers]; destruct s'; simpl; auto|]. intros t'' s2. cbn [xpend]. unfold put. destruct (t'' =? t) eqn:T2; [discriminate|]. intros E. apply P4 in E. apply Nat.eqb_neq in T2. congruence. }
          intros r rq hs i b E. apply K. eapply RQ; eauto.
        * injection SS as <- <-. apply Nat.eqb_neq in TT. destruct (xpend x t) eqn:E; [apply P4 in E; congruence|].
          split; [|auto]. split; [auto|]. split; [auto|]. split; [exists s'; auto|auto].
      + injection SS as <- <-. rewrite PE. split; [|auto]. split; [auto|]. split; [auto|]. split; auto.
    - injection SS as <- <-. destruct (xreq x r) eqn:E; [split; [split; [auto|split; [auto|split; auto]]|auto]|].
      split; [|intros a Sa; split; [exact Sa|reflexivity]]. split; [auto|]. split; [auto|]. split; [auto|]. split; [exact SH|].
      intros r' rq' hs i b. cbn [xreq]. unfold put. destruct (r' =? r); [|apply RQ]. intros Q. injection Q as <- <- <- <-. exact SH.
    - injection SS as <- <-. destruct (xreq x r) as [s|] eqn:E; [|split; [split; [auto|split; [auto|split; auto]]|auto]].
      split; [|intros a Sa; split; [exact Sa|reflexivity]]. split; [auto|]. split; [auto|]. split; [auto|]. split; [exact SH|].
      intros r' rq' hs i b. cbn [xreq]. unfold put. destruct (r' =? r); [|apply RQ]. intros Q. injection Q as Q.
      destruct s as [rq0 hs0 i0 b0|resp|]; cbn [serve_step] in Q; try discriminate.
      assert (hs = hs0); [|subst; eapply RQ; eauto].
      destruct (i0 <? slen hs0); [|discriminate]. destruct (sget (xmem x) hs0 i0) as [[[mm re] hh]| |]; try discriminate.
      destruct (find re (rpath rq0)); [destruct (str_eqb (rmethod rq0) mm); [discriminate|]|]; congruence.
  Qed.

  Lemma run_inv es : forall x pend done rest, inv x pend done -> registered compile pend done (es ++ rest) <> None ->
    exists p d, inv (runs x es) p d /\ registered compile pend done es = Some d /\ registered compile p d rest <> None.
  Proof.
    induction es as [|e es IH]; intros x pend done rest I R.
    - exists pend, done. auto.
    - cbn [app] in R. rewrite registered_cons in R. rewrite registered_cons. destruct (spec_step pend done e) as [[p d]|] eqn:SS; [|congruence].
      destruct (step_inv x pend done e p d I SS) as (I' & _). apply (IH (stp x e) p d rest I' R).
  Qed.
  Lemma inv0 : inv mux0 None [].
  Proof. split; [exact Logic.I|]. split; [reflexivity|]. split; [auto|]. split; [|discriminate]. split; [exact Logic.I|]. split; [exact Logic.I|]. discriminate. Qed.

  (** One request *)
  Definition no_full (L : list entry) rq := forall e, In e L -> fst (fst e) = rmethod rq -> ~ matches find rq e.
  Definition good (L : list entry) (rq : request) (n : nat) (x : mux regex handler) (s : rstate handler) : Prop :=
    match s with
    | Running rq' hs i b => rq' = rq /\ snap_ok x hs /\ contents (xmem x) hs = L /\ i = n /\ i <= length L /\
        no_full (firstn i L) rq /\ (b = true <-> exists e, In e (firstn i L) /\ matches find rq e)
    | Finished resp => answers find L rq resp
    | Crashed => False
    end.
  Lemma firstn_S {A} (l : list A) i a : nth_error l i = Some a -> firstn (S i) l = firstn i l ++ [a].
  Proof.
    revert l. induction i as [|i IH]; intros [|x l]; try discriminate; [simpl; congruence|]. intros E.
    change (x :: firstn (S i) l = x :: (firstn i l ++ [a])). f_equal. apply IH. exact E.
  Qed.
  Lemma nth_split' {A} (l : list A) i a : nth_error l i = Some a -> l = firstn i l ++ a :: skipn (S i) l.
  Proof.
    revert l. induction i as [|i IH]; intros [|x l]; try discriminate; [simpl; congruence|]. intros E.
    change (x :: l = x :: (firstn i l ++ a :: skipn (S i) l)). f_equal. apply IH. exact E.
  Qed.

  Lemma good_step L rq n x s : good L rq n x s -> good L rq (S n) x (serve_step find (xmem x) s).
  Proof.
    destruct s as [rq' hs i b|resp|]; cbn [good serve_step]; auto. intros (-> & SN & C & -> & LE & NF & B).
    destruct (n <? slen hs) eqn:LT.
    - unfold sget. rewrite C. assert (LL : slen hs = length L) by (rewrite <- C, contents_length; auto; apply SN).
      apply Nat.ltb_lt in LT. destruct (nth_error L n) as [[[mm re] hh]|] eqn:N; [|apply nth_error_None in N; lia].
      destruct (find re (rpath rq)) as [parts|] eqn:FD.
      + destruct (str_eqb (rmethod rq) mm) eqn:M.
        * apply str_eqb_eq in M. cbn [good]. eapply answers_served with (re := re) (m := mm); eauto. apply nth_split'; auto.
        * cbn [good]. split; [auto|]. split; [auto|]. split; [auto|]. split; [auto|]. split; [lia|]. rewrite (firstn_S _ _ _ N). split.
          { intros e I E. apply in_app_iff in I as [I|[<-|[]]]; [apply NF; auto|]. simpl in E. assert (str_eqb (rmethod rq) mm = true) by (apply str_eqb_eq; auto). congruence. }
          { split; auto. intros _. exists (mm, re, hh). split; [apply in_app_iff; right; left; auto|]. unfold matches. simpl. congruence. }
      + cbn [good]. split; [auto|]. split; [auto|]. split; [auto|]. split; [auto|]. split; [lia|]. rewrite (firstn_S _ _ _ N).
        assert (NM : ~ matches find rq (mm, re, hh)) by (unfold matches; simpl; congruence). split.
        { intros e I E. apply in_app_iff in I as [I|[<-|[]]]; [apply NF; auto|auto]. }
        { rewrite B. split; intros (e & I & M); exists e; (split; [|auto]); [apply in_app_iff; auto|].
          apply in_app_iff in I as [I|[<-|[]]]; [auto|tauto]. }
    - assert (LL : slen hs = length L) by (rewrite <- C, contents_length; auto; apply SN). apply Nat.ltb_ge in LT.
      rewrite firstn_all2 in * by lia. cbn [good]. destruct b.
      + apply answers_405; auto. apply B; auto.
      + apply answers_404. intros e I M. assert (false = true) by (apply B; eauto). discriminate.
  Qed.

  Lemma run_good L rq r post : forall x pend done n s, inv x pend done -> registered compile pend done post <> None ->
    xreq x r = Some s -> good L rq n x s ->
    exists s', xreq (runs x post) r = Some s' /\ good L rq (n + steps r post) (runs x post) s'.
  Proof.
    induction post as [|e post IH]; intros x pend done n s I R X G.
    - exists s. unfold steps. simpl. rewrite Nat.add_0_r. auto.
    - rewrite registered_cons in R. destruct (spec_step pend done e) as [[p d]|] eqn:SS; [|congruence].
      destruct (step_inv x pend done e p d I SS) as (I' & K).
      assert (G' : forall n s, good L rq n x s -> good L rq n (stp x e) s).
      { clear - K. intros n s G. destruct s; auto. destruct G as (A1 & A2 & A3 & A4). destruct (K _ A2) as (B1 & B2).
        split; [auto|]. split; [auto|]. split; [congruence|auto]. }
      assert (Q : exists s' n', xreq (stp x e) r = Some s' /\ good L rq n' (stp x e) s' /\ n' + steps r post = n + steps r (e :: post)).
      { destruct e as [t me pa h|t|r' rq'|r'].
        - exists s, n. split; [|split; [apply G'; auto|reflexivity]]. cbn [step]. destruct (handle_check compile me pa h); auto. destruct (slice_add ex (xmem x) (xhandlers x) e); auto.
        - exists s, n. split; [|split; [apply G'; auto|reflexivity]]. cbn [step]. destruct (xpend x t); auto.
        - exists s, n. split; [|split; [apply G'; auto|reflexivity]]. cbn [step]. destruct (xreq x r') eqn:E; auto. cbn [xreq]. rewrite put_neq; auto. congruence.
        - destruct (Nat.eq_dec r' r) as [->|N].
          + exists (serve_step find (xmem x) s), (S n). split; [cbn [step]; rewrite X; cbn [xreq]; apply put_eq|].
            split; [apply G', good_step; auto|]. unfold steps. simpl. rewrite Nat.eqb_refl. simpl. lia.
          + exists s, n. split; [cbn [step]; destruct (xreq x r') eqn:E; auto; cbn [xreq]; rewrite put_neq; auto|].
            split; [apply G'; auto|]. unfold steps. simpl. apply Nat.eqb_neq in N. rewrite N. reflexivity. }
      destruct Q as (s' & n' & X' & G2 & <-). eapply IH; eauto.
  Qed.

  Lemma no_start_none r es : no_start r es -> forall x, xreq x r = None -> xreq (runs x es) r = None.
  Proof.
    induction es as [|e es IH]; intros NS x X; auto. cbn [run fold_left]. apply IH.
    { intros rq I. apply (NS rq). right; auto. }
    destruct e as [t me pa h|t|r' rq'|r']; cbn [step].
    - destruct (handle_check compile me pa h); auto. destruct (slice_add ex (xmem x) (xhandlers x) e); auto.
    - destruct (xpend x t); auto.
    - destruct (xreq x r') eqn:E; auto. cbn [xreq]. rewrite put_neq; auto. intros ->. apply (NS rq'). left; auto.
    - destruct (xreq x r') eqn:E; auto. cbn [xreq]. rewrite put_neq; auto. congruence.
  Qed.
End P.
