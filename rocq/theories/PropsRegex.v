(** C97: the patterns of a mux. *)
From Verif Require Import Base Rest RestSpec ReaderSpec JsonSpec Regex RegexSpec RegexProofs RegexProofs2 RegexProofs3 RegexProofs4.
From Coq Require Import String List.
Import ListNotations.
Open Scope Z_scope.

(** Every pattern that compiles (in the modelled syntax), on every input: a match is found exactly if the expression has one
    anywhere; it is one with the leftmost start; the first part is the text matched, followed by one text for every group. *)
Theorem C97_find pattern g r input : compile pattern = Compiled g r ->
  let cs := cells_of input in
  match find_submatch (g, r) input with
  | Some parts => List.length parts = S g /\ exists p q c, (p <= List.length cs)%nat /\ means cs r p [] q c /\ (forall i j d, (i < p)%nat -> ~ means cs r i [] j d) /\
      parts = bytes_between cs p q :: List.map (group_text cs c) (seq 1 g)
  | None => forall i j d, (i <= List.length cs)%nat -> ~ means cs r i [] j d
  end.
Proof.
  intros C cs. apply compiled_ok in C. unfold find_submatch. cbn [fst snd]. fold cs.
  pose proof (search_spec cs r C (S (List.length cs)) 0 eq_refl) as H. destruct (search cs r (S (List.length cs)) 0) as [[[p q] c]|].
  - destruct H as (_ & L & M & N). split; [cbn [List.length]; rewrite map_length, seq_length; reflexivity|]. exists p, q, c.
    split; [exact L|]. split; [exact M|]. split; [|reflexivity]. intros i j d LI. apply N. lia.
  - intros i j d L. apply H. lia.
Qed.

(** The text of every route is a valid pattern, and it matches exactly the paths of the route's form; the parts handed over are the
    path and the values of its identifiers and segments, in order. *)
Theorem C97_route t : route_ok t -> exists g r, compile (route t) = Compiled g r /\
  forall path parts, find_submatch (g, r) path = Some parts <-> exists vals, fits t path vals /\ parts = path :: vals.
Proof.
  intros OK. exists (groups t), (route_re t). split; [apply compile_route, route_lits, OK|]. intros. apply route_find, OK.
Qed.
(** The values are determined by the path. *)
Theorem C97_values t path v v' : route_ok t -> fits t path v -> fits t path v' -> v = v'.
Proof. intros OK A B. eapply fits_unique; eauto. Qed.

(** Fixed text and the rest of the path: every path that starts with the text and has no line feed after it, with what follows. *)
Theorem C97_prefix p : Forall plain_rune p -> exists g r, compile (text "^" ++ utf8 p ++ text "(.*)$") = Compiled g r /\
  forall path parts, find_submatch (g, r) path = Some parts <-> exists rest, ~ In 10 rest /\ path = utf8 p ++ rest /\ parts = [path; rest].
Proof.
  intros P. destruct (C97_route [Lit p; Tail]) as (g & r & C & H). { cbn. auto. }
  exists g, r. split.
  { rewrite <- C. unfold route, pieces_text. cbn [flat_map piece_text]. rewrite app_nil_r, <- !app_assoc. reflexivity. }
  intros path parts. rewrite H. split.
  - intros (vals & F & ->). inversion F as [|? ? ? ? F1| | |]; subst. inversion F1 as [| | | |s ? ? ? N F2]; subst. inversion F2; subst. exists s. rewrite app_nil_r. auto.
  - intros (s & N & -> & ->). exists [s]. split; [|reflexivity]. rewrite <- (app_nil_r s) at 1. repeat constructor; auto.
Qed.
(** The case of the documentation: fixed text, UUIDGroup, fixed text. *)
Theorem C97_uuid p s : Forall plain_rune p -> Forall plain_rune s -> exists g r,
  compile (text "^" ++ utf8 p ++ UUIDGroup ++ utf8 s ++ text "$") = Compiled g r /\
  forall path parts, find_submatch (g, r) path = Some parts <-> exists u, is_uuid u /\ path = utf8 p ++ u ++ utf8 s /\ parts = [path; u].
Proof.
  intros P S0. destruct (C97_route [Lit p; Uuid; Lit s]) as (g & r & C & H). { cbn. auto. }
  exists g, r. split.
  { rewrite <- C. unfold route, pieces_text. cbn [flat_map piece_text]. rewrite app_nil_r, <- !app_assoc. reflexivity. }
  intros path parts. rewrite H. split.
  - intros (vals & F & ->). inversion F as [|? ? ? ? F1| | |]; subst. inversion F1 as [| |u ? ? ? U F2| |]; subst. inversion F2 as [|? ? ? ? F3| | |]; subst.
    inversion F3; subst. exists u. rewrite app_nil_r. auto.
  - intros (u & U & -> & ->). exists [u]. split; [|reflexivity]. repeat constructor; auto. rewrite <- (app_nil_r (utf8 s)). repeat constructor.
Qed.

(** Without anchors a pattern matches anywhere: what is found is the leftmost text of the form. *)
Theorem C97_unanchored t : Forall no_segment t -> route_ok t -> pieces_text t <> [] -> exists g r, compile (pieces_text t) = Compiled g r /\
  forall path, match find_submatch (g, r) path with
  | Some parts => exists a mid b vals, path = a ++ mid ++ b /\ fits t mid vals /\ parts = mid :: vals /\
      (forall a' mid' b' v', path = a' ++ mid' ++ b' -> fits t mid' v' -> (List.length a <= List.length a')%nat)
  | None => forall a mid b v, path = a ++ mid ++ b -> ~ fits t mid v
  end.
Proof.
  intros NO OK NE. exists (groups t), (cat (pieces_re t 0)). split; [apply compile_pieces, route_lits, OK|].
  intros path. apply pieces_find; auto. apply route_lits, OK.
Qed.
(** Finding: so a pattern of plain text serves every path that contains it. *)
Theorem C97_finding_contains s : Forall plain_rune s -> s <> [] -> exists g r, compile (utf8 s) = Compiled g r /\
  forall path, find_submatch (g, r) path = Some [utf8 s] /\ (exists a b, path = a ++ utf8 s ++ b) \/
               find_submatch (g, r) path = None /\ ~ (exists a b, path = a ++ utf8 s ++ b).
Proof.
  intros P NE. destruct (C97_unanchored [Lit s]) as (g & r & C & H).
  { repeat constructor; discriminate. } { cbn; auto. }
  { unfold pieces_text. cbn [flat_map piece_text]. rewrite app_nil_r. destruct s as [|c s]; [congruence|]. unfold utf8. cbn [flat_map]. unfold encode.
    repeat (match goal with |- context[if ?b then _ else _] => destruct b end); discriminate. }
  exists g, r. unfold pieces_text in C. cbn [flat_map piece_text] in C. rewrite app_nil_r in C. split; [exact C|]. intros path. specialize (H path).
  assert (F : forall mid v, fits [Lit s] mid v <-> mid = utf8 s /\ v = []).
  { intros mid v. split.
    - intros F. inversion F as [|? ? ? ? F1| | |]; subst. inversion F1; subst. rewrite app_nil_r. auto.
    - intros [-> ->]. rewrite <- (app_nil_r (utf8 s)). repeat constructor. }
  destruct (find_submatch (g, r) path) as [parts|].
  - left. destruct H as (a & mid & b & vals & E & F1 & -> & _). apply F in F1 as [-> ->]. split; [reflexivity|]. exists a, b. exact E.
  - right. split; [reflexivity|]. intros (a & b & E). apply (H a (utf8 s) b []); auto. apply F. auto.
Qed.
(** Finding: alternatives bind weaker than the anchors, so that each anchor applies to one of them. *)
Theorem C97_finding_alternatives : exists x, compile_opt (text "^/a|/b$") = Some x /\
  find_submatch x (text "/a/secret") = Some [text "/a"] /\ find_submatch x (text "/secret/b") = Some [text "/b"].
Proof. eexists. split; [vm_compute; reflexivity|]. split; vm_compute; reflexivity. Qed.

(** A mux of routes: Handle accepts every one, and a request is answered by the first registration of its method whose form the path
    has, with the values; 405 if only other methods have it, 404 if none has. *)
Theorem C97_handle {handler} method t (h : handler) : method <> [] -> route_ok t ->
  exists x, handle_check compile_opt method (route t) (Some h) = inl (method, x, h) /\ compile_opt (route t) = Some x.
Proof.
  intros NM OK. destruct (C97_route t OK) as (g & r & C & _). exists (g, r). unfold handle_check, compile_opt. rewrite C.
  destruct method; [congruence|]. split; reflexivity.
Qed.
Theorem C97_serve {handler} (rs : list (str * list piece * handler)) es rq resp :
  (forall x, In x rs -> route_ok (snd (fst x))) ->
  Forall2 (fun x e => handle_check compile_opt (fst (fst x)) (route (snd (fst x))) (Some (snd x)) = inl e) rs es ->
  answers find_submatch es rq resp <-> route_answers rs rq resp.
Proof.
  intros OK F2.
  assert (F : Forall2 (fun x e => fst (fst e) = fst (fst x) /\ snd e = snd x /\
      forall path parts, find_submatch (snd (fst e)) path = Some parts <-> exists vals, fits (snd (fst x)) path vals /\ parts = path :: vals) rs es).
  { induction F2 as [|x e rs es H _ IH]; constructor; [|apply IH; intros; apply OK; right; auto].
    destruct x as [[m t] h]. cbn [fst snd] in *. destruct (C97_route t (OK (m, t, h) (or_introl eq_refl))) as (g & r & C & Hf).
    unfold handle_check, compile_opt in H. rewrite C in H. destruct m; [discriminate|]. destruct (route t); [discriminate|]. inversion H; subst. auto. }
  clear F2 OK.
  assert (FI : forall x e, fst (fst e) = fst (fst x) /\ snd e = snd x /\
      (forall path parts, find_submatch (snd (fst e)) path = Some parts <-> exists vals, fits (snd (fst x)) path vals /\ parts = path :: vals) ->
      (matches find_submatch rq e <-> @reg_fits handler (rpath rq) x)).
  { intros x e (_ & _ & H). unfold matches, reg_fits. split.
    - intros N. destruct (find_submatch (snd (fst e)) (rpath rq)) as [parts|] eqn:E; [|congruence]. apply H in E as (vals & V & _). eauto.
    - intros (vals & V). rewrite (proj2 (H (rpath rq) (rpath rq :: vals))); [discriminate|]. eauto. }
  assert (IN : forall l m, Forall2 (fun x e => fst (fst e) = fst (fst x) /\ snd e = snd x /\
      forall path parts, find_submatch (snd (fst e)) path = Some parts <-> exists vals, fits (snd (fst x)) path vals /\ parts = path :: vals) l m ->
      (forall e, In e m -> exists x, In x l /\ fst (fst e) = fst (fst x) /\ (matches find_submatch rq e <-> @reg_fits handler (rpath rq) x)) /\
      (forall x, In x l -> exists e, In e m /\ fst (fst e) = fst (fst x) /\ (matches find_submatch rq e <-> @reg_fits handler (rpath rq) x))).
  { induction 1 as [|x e l m H _ [IH1 IH2]]; [split; intros ? []|]. split.
    - intros e' [<-|I]; [exists x; split; [left; auto|]; split; [apply H|apply FI, H]|]. destruct (IH1 e' I) as (x' & A & B). exists x'. split; [right; auto|auto].
    - intros x' [<-|I]; [exists e; split; [left; auto|]; split; [apply H|apply FI, H]|]. destruct (IH2 x' I) as (e' & A & B). exists e'. split; [right; auto|auto]. }
  split.
  - intros A. destruct A as [pre m re h parts post E M P N|N (e & I & MA)|N].
    + subst es. apply Forall2_app_inv_r in F as (pre' & post' & F1 & F2 & ->). inversion F2 as [|[[m' t] h'] ? post'' ? (H1 & H2 & H3) F3]; subst.
      cbn [fst snd] in *. subst. apply H3 in P as (vals & V & ->). eapply ra_served; eauto.
      intros x I M. destruct (proj2 (IN _ _ F1) x I) as (e & I' & A & B). rewrite <- B. apply N; auto. congruence.
    + apply ra_405.
      * intros x I' M. destruct (proj2 (IN _ _ F) x I') as (e' & I2 & A & B). rewrite <- B. apply N; auto. congruence.
      * destruct (proj1 (IN _ _ F) e I) as (x & I' & _ & B). exists x. split; [exact I'|]. apply B, MA.
    + apply ra_404. intros x I. destruct (proj2 (IN _ _ F) x I) as (e' & I2 & A & B). rewrite <- B. apply N; auto.
  - intros A. destruct A as [pre m t h post vals E M V N|N (x & I & R)|N].
    + subst rs. apply Forall2_app_inv_l in F as (pre' & post' & F1 & F2 & ->). inversion F2 as [|? [[m' re] h'] ? post'' (H1 & H2 & H3) F3]; subst.
      cbn [fst snd] in *. subst. eapply answers_served; eauto; [apply H3; eauto|].
      intros e I M. destruct (proj1 (IN _ _ F1) e I) as (x & I' & A & B). rewrite B. apply N; auto. congruence.
    + apply answers_405.
      * intros e I' M. destruct (proj1 (IN _ _ F) e I') as (x' & I2 & A & B). rewrite B. apply N; auto. congruence.
      * destruct (proj2 (IN _ _ F) x I) as (e & I' & _ & B). exists e. split; [exact I'|]. apply B, R.
    + apply answers_404. intros e I. destruct (proj1 (IN _ _ F) e I) as (x' & I2 & A & B). rewrite B. apply N; auto.
Qed.

(** Concrete cases: the route of rest_test.go, and one with two segments. *)
Example C97_ex_uuid : route_ok [Lit (text "/customer/"); Uuid] /\
  is_uuid (text "12345678-9ABC-DEF0-1234-567890abcdef") /\
  exists x, compile_opt (text "^/customer/" ++ UUIDGroup ++ text "$") = Some x /\
    find_submatch x (text "/customer/12345678-9ABC-DEF0-1234-567890abcdef") =
      Some [text "/customer/12345678-9ABC-DEF0-1234-567890abcdef"; text "12345678-9ABC-DEF0-1234-567890abcdef"] /\
    find_submatch x (text "/customer/12345678-9ABC-DEF0-1234-567890abcdeg") = None.
Proof.
  split.
  { cbn [route_ok]. split; [|exact Logic.I]. repeat constructor; try (vm_compute; intuition discriminate). }
  split.
  { exists (text "12345678"), (text "9ABC"), (text "DEF0"), (text "1234"), (text "567890abcdef").
    assert (H : forall s, forallb (fun c => ((48 <=? c) && (c <=? 57)) || ((65 <=? c) && (c <=? 70)) || ((97 <=? c) && (c <=? 102))) s = true -> Forall hex s).
    { intros s E. apply Forall_forall. intros c I. rewrite forallb_forall in E. specialize (E c I). unfold hex. lia. }
    repeat (split; [split; [reflexivity|apply H; vm_compute; reflexivity]|]). reflexivity. }
  eexists. split; [vm_compute; reflexivity|]. split; vm_compute; reflexivity.
Qed.
(** counts *)
Example C97_ex_counts : exists x y z, compile_opt (text "^a{10}$") = Some x /\ find_submatch x (text "aaaaaaaaaa") = Some [text "aaaaaaaaaa"] /\ find_submatch x (text "aaaaaaaaa") = None /\
  compile_opt (text "^a{0,2}b$") = Some y /\ find_submatch y (text "b") = Some [text "b"] /\ find_submatch y (text "aab") = Some [text "aab"] /\ find_submatch y (text "aaab") = None /\
  compile_opt (text "^a{2,}$") = Some z /\ find_submatch z (text "a") = None /\ find_submatch z (text "aaa") = Some [text "aaa"] /\
  compile (text "a{1001}") = Rejected /\ compile (text "a{3,2}") = Rejected /\ compile (text "\0") = Outside.
Proof. do 3 eexists. split; [reflexivity|]. split; [vm_compute; reflexivity|]. split; [vm_compute; reflexivity|]. split; [reflexivity|]. repeat split; vm_compute; reflexivity. Qed.
Example C97_ex_segments : route_ok [Lit (text "/a/"); Segment; Lit (text "/b/"); Segment] /\
  fits [Lit (text "/a/"); Segment; Lit (text "/b/"); Segment] (text "/a/x y/b/z") [text "x y"; text "z"].
Proof.
  split.
  - cbn [route_ok]. split; [repeat constructor; try (vm_compute; intuition discriminate)|].
    change (route_ok [Lit (text "/b/"); Segment]). cbn [route_ok]. split; [|exact Logic.I]. repeat constructor; try (vm_compute; intuition discriminate).
  - change (text "/a/x y/b/z") with (utf8 (text "/a/") ++ (text "x y" ++ (utf8 (text "/b/") ++ (text "z" ++ [])))).
    repeat constructor; try discriminate; vm_compute; intuition discriminate.
Qed.
