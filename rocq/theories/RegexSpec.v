(** What the properties of C97 talk about. *)
From Verif Require Import Base Rest ReaderSpec JsonSpec Regex.
From Coq Require Import String.
Open Scope Z_scope.

(** ** What an expression matches: between two positions (counted in runes) of a text, and what the groups capture *)
Inductive means (cs : list cell) : re -> nat -> caps -> nat -> caps -> Prop :=
| m_empty p c : means cs REmpty p c p c
| m_class neg ranges p c x bs : nth_error cs p = Some (x, bs) -> in_class neg ranges x = true ->
    means cs (RClass neg ranges) p c (S p) c
| m_bol c : means cs RBol 0 c 0 c
| m_eol c : means cs REol (List.length cs) c (List.length cs) c
| m_cat a b p c q d e f : means cs a p c q d -> means cs b q d e f -> means cs (RCat a b) p c e f
| m_alt1 a b p c q d : means cs a p c q d -> means cs (RAlt a b) p c q d
| m_alt2 a b p c q d : means cs b p c q d -> means cs (RAlt a b) p c q d
| m_star0 g a p c : means cs (RStar g a) p c p c
| m_star1 g a p c q d e f : means cs a p c q d -> means cs (RStar g a) q d e f -> means cs (RStar g a) p c e f
| m_group n a p c q d : means cs a p c q d -> means cs (RGroup n a) p c q ((n, (p, q)) :: d).

(** ** Routes: a path pattern made of literal text, identifiers, path segments, and the rest of the path *)
(** a character that stands for itself in a pattern *)
Definition plain_rune (c : Z) : Prop := scalar c /\ c <> 65533 /\ ~ In c (text "()[]{}*+?|\.^$").
Inductive piece : Type := Lit (s : list Z) | Uuid | Segment | Tail.
Definition piece_text (x : piece) : str :=
  match x with Lit s => utf8 s | Uuid => UUIDGroup | Segment => text "([^/]+)" | Tail => text "(.*)" end.
Definition pieces_text (t : list piece) : str := flat_map piece_text t.
(** the pattern of a route: anchored at both ends *)
Definition route (t : list piece) : str := text "^" ++ pieces_text t ++ text "$".
(** literal texts are plain, a segment ends the route or is followed by a slash, a tail ends the route *)
Fixpoint route_ok (t : list piece) : Prop :=
  match t with
  | [] => True
  | Lit s :: t => Forall plain_rune s /\ route_ok t
  | Uuid :: t => route_ok t
  | Segment :: t => match t with [] => True | Lit (47 :: _) :: _ => route_ok t | _ => False end
  | Tail :: t => match t with [] => True | _ => False end
  end.

(** the textual form of a UUID: 8-4-4-4-12 hexadecimal digits of either case *)
Definition hex (c : Z) : Prop := 48 <= c <= 57 \/ 65 <= c <= 70 \/ 97 <= c <= 102.
Definition hexes (n : nat) (s : str) : Prop := List.length s = n /\ Forall hex s.
Definition is_uuid (u : str) : Prop := exists a b c d e, hexes 8 a /\ hexes 4 b /\ hexes 4 c /\ hexes 4 d /\ hexes 12 e /\
  u = a ++ [45] ++ b ++ [45] ++ c ++ [45] ++ d ++ [45] ++ e.

(** a path that has the form of a route, with the values of its identifiers, segments and tail (which may be empty, and has no line feed) *)
Inductive fits : list piece -> str -> list str -> Prop :=
| fits_nil : fits [] [] []
| fits_lit s t rest vals : fits t rest vals -> fits (Lit s :: t) (utf8 s ++ rest) vals
| fits_uuid u t rest vals : is_uuid u -> fits t rest vals -> fits (Uuid :: t) (u ++ rest) (u :: vals)
| fits_segment s t rest vals : s <> [] -> ~ In 47 s -> fits t rest vals -> fits (Segment :: t) (s ++ rest) (s :: vals)
| fits_tail s t rest vals : ~ In 10 s -> fits t rest vals -> fits (Tail :: t) (s ++ rest) (s :: vals).

(** a route without segments and tails *)
Definition no_segment (x : piece) : Prop := x <> Segment /\ x <> Tail.

(** ** What a mux of routes is to answer: the registrations in order, each a method, a route and a handler *)
Section Answers.
  Context {handler : Type}.
  Notation registration := (str * list piece * handler)%type.
  Definition reg_fits (path : str) (x : registration) : Prop := exists vals, fits (snd (fst x)) path vals.
  Inductive route_answers (rs : list registration) (rq : request) : response handler -> Prop :=
  | ra_served pre m t h post vals : rs = pre ++ (m, t, h) :: post -> m = rmethod rq -> fits t (rpath rq) vals ->
      (forall x, In x pre -> fst (fst x) = rmethod rq -> ~ reg_fits (rpath rq) x) ->
      route_answers rs rq (Served h (rpath rq :: vals))
  | ra_405 : (forall x, In x rs -> fst (fst x) = rmethod rq -> ~ reg_fits (rpath rq) x) -> (exists x, In x rs /\ reg_fits (rpath rq) x) ->
      route_answers rs rq (Status 405)
  | ra_404 : (forall x, In x rs -> ~ reg_fits (rpath rq) x) -> route_answers rs rq (Status 404).
End Answers.
