(** Model of package regexp as far as rest/rest.go:67 (regexp.Compile) and 98 (FindStringSubmatch) need it, and of the constant
    UUIDGroup of rest/rest.go:25.

    Compile is an automaton that reads the pattern rune by rune; a construct that is not modelled makes it answer [Outside]
    (flags and names after an opening parenthesis followed by a question mark, a brace that does not start a repetition,
    POSIX classes, backslash before a letter or digit other than d, w, s, D, W, S, those inside brackets, a repetition without bound of something that may match the
    empty text, a counted repetition of something with a counted repetition in it), and no statement is made about such patterns.
    The limits of regexp/syntax on the size and depth of an expression are left out.
    Matching is leftmost-first, by the list of all ways to match in the order of their priority. *)
From Verif Require Import Base Rest.
From Coq Require Import Ascii String.
Open Scope Z_scope.

(** the code points of an ASCII text *)
Definition text (s : string) : str := List.map (fun c => Z.of_nat (nat_of_ascii c)) (list_ascii_of_string s).

(** ** Runes of a text, with their bytes: utf8.DecodeRuneInString, used by regexp for patterns and inputs.  A byte that does not
    start a valid encoding counts as the rune U+FFFD. *)
Notation cell := (Z * list Z)%type.
Definition trail (b : Z) : bool := (128 <=? b) && (b <=? 191).
Fixpoint cells_of (s : str) : list cell :=
  match s with
  | [] => []
  | b0 :: s0 =>
      let bad := (65533, [b0]) :: cells_of s0 in
      if b0 <? 128 then (b0, [b0]) :: cells_of s0
      else match s0 with
      | b1 :: s1 =>
          if (194 <=? b0) && (b0 <=? 223) && trail b1 then ((b0 - 192) * 64 + (b1 - 128), [b0; b1]) :: cells_of s1
          else match s1 with
          | b2 :: s2 =>
              let r3 := (b0 - 224) * 4096 + (b1 - 128) * 64 + (b2 - 128) in
              if (224 <=? b0) && (b0 <=? 239) && trail b1 && trail b2 && (2048 <=? r3) && negb ((55296 <=? r3) && (r3 <=? 57343))
              then (r3, [b0; b1; b2]) :: cells_of s2
              else match s2 with
              | b3 :: s3 =>
                  let r4 := (b0 - 240) * 262144 + (b1 - 128) * 4096 + (b2 - 128) * 64 + (b3 - 128) in
                  if (240 <=? b0) && (b0 <=? 244) && trail b1 && trail b2 && trail b3 && (65536 <=? r4) && (r4 <=? 1114111)
                  then (r4, [b0; b1; b2; b3]) :: cells_of s3
                  else bad
              | [] => bad
              end
          | [] => bad
          end
      | [] => bad
      end
  end.

(** ** Expressions *)
Inductive re : Type :=
| REmpty                                          (* the empty text *)
| RClass (neg : bool) (ranges : list (Z * Z))     (* one rune *)
| RBol | REol                                     (* ^ and $, without the m flag: the ends of the text *)
| RCat (a b : re) | RAlt (a b : re)
| RStar (greedy : bool) (a : re)
| RGroup (n : nat) (a : re).                      (* capturing group n *)

Definition in_class (neg : bool) (ranges : list (Z * Z)) (c : Z) : bool :=
  xorb neg (existsb (fun '(lo, hi) => (lo <=? c) && (c <=? hi)) ranges).
Definition rchar (c : Z) : re := RClass false [(c, c)].

(** ** Matching.  Positions count runes.  Captures: group and its ends, the latest first. *)
Definition caps : Type := list (nat * (nat * nat)).
Section Match.
  Variable cs : list cell.
  (** any number of times [w], at most [n]; a repetition that has not moved on is not counted *)
  Fixpoint star_ways (greedy : bool) (w : nat -> caps -> list (nat * caps)) (n p : nat) (c : caps) : list (nat * caps) :=
    match n with
    | O => [(p, c)]
    | S n => let more := flat_map (fun '(q, d) => if (p <? q)%nat then star_ways greedy w n q d else []) (w p c) in
             if greedy then more ++ [(p, c)] else (p, c) :: more
    end.
  (** all ways to match from a position, in order of priority: where the match ends and the captures *)
  Fixpoint ways (r : re) (p : nat) (c : caps) : list (nat * caps) :=
    match r with
    | REmpty => [(p, c)]
    | RClass neg ranges =>
        match nth_error cs p with
        | Some (x, _) => if in_class neg ranges x then [(S p, c)] else []
        | None => []
        end
    | RBol => if (p =? 0)%nat then [(p, c)] else []
    | REol => if (p =? List.length cs)%nat then [(p, c)] else []
    | RCat a b => flat_map (fun '(q, d) => ways b q d) (ways a p c)
    | RAlt a b => ways a p c ++ ways b p c
    | RStar greedy a =>
        star_ways greedy (ways a) (List.length cs - p) p c
    | RGroup n a => List.map (fun '(q, d) => (q, (n, (p, q)) :: d)) (ways a p c)
    end.
  (** the first start at which there is a way, from [p] on, [n] starts to try *)
  Fixpoint search (r : re) (n p : nat) : option (nat * nat * caps) :=
    match n with
    | O => None
    | S n => match ways r p [] with (q, c) :: _ => Some (p, q, c) | [] => search r n (S p) end
    end.
  (** the bytes between two positions *)
  Definition bytes_between (p q : nat) : str := flat_map snd (firstn (q - p) (skipn p cs)).
  (** a group's text; a group that took no part gives the empty text *)
  Definition group_text (c : caps) (n : nat) : str :=
    match find (fun e => (fst e =? n)%nat) c with Some (_, (p, q)) => bytes_between p q | None => [] end.
End Match.

(** ** Compile *)
(** may match the empty text *)
Fixpoint nullable (r : re) : bool :=
  match r with
  | REmpty | RBol | REol | RStar _ _ => true
  | RClass _ _ => false
  | RCat a b => nullable a && nullable b
  | RAlt a b => nullable a || nullable b
  | RGroup _ a => nullable a
  end.
(** what has been read last: nothing a repetition could apply to; an operand; a repetition operator, after which a question mark
    makes it prefer fewer; that question mark.  [OperandRep] is an operand with a counted repetition in it. *)
Inductive last_item : Type := Nothing | Operand | OperandRep | Operator (base : re) (lo : nat) (hi : option nat) (counted : bool) | Reluctant (counted : bool).
(** an open group: its number (0 for the whole pattern), its finished alternatives and the items of the current one, latest first,
    whether a counted repetition was seen in it *)
Record frame : Type := Frame { fgroup : nat; falts : list re; fitems : list re; flast : last_item; fcounted : bool }.
Inductive mode : Type :=
| MPlain
| MEscape                                                            (* after a backslash *)
| MOpen                                                              (* after an opening parenthesis *)
| MBracket                                                           (* after an opening bracket *)
| MClass (neg first : bool) (ranges : list (Z * Z))                  (* inside brackets, at the start of an item *)
| MClassEscape (neg : bool) (ranges : list (Z * Z)) (lo : option Z)  (* after a backslash inside brackets, maybe after a minus *)
| MClassLo (neg : bool) (ranges : list (Z * Z)) (lo : Z) (bracket : bool)   (* after one rune of an item; an unescaped opening bracket *)
| MClassDash (neg : bool) (ranges : list (Z * Z)) (lo : Z)           (* after that and a minus *)
| MCount (n : option nat)                                            (* in the first number of a repetition *)
| MCountMax (n : nat) (m : option nat).                              (* in the second *)
Inductive pstate : Type := PState (m : mode) (top : frame) (below : list frame) (groups : nat) | PBad | POutside.

Definition items_re (items : list re) : re := fold_right RCat REmpty (rev items).
Definition frame_re (f : frame) : re :=
  match rev (items_re (fitems f) :: falts f) with a :: l => fold_left RAlt l a | [] => REmpty end.

Fixpoint rpow (a : re) (n : nat) (rest : re) : re := match n with O => rest | S n => RCat a (rpow a n rest) end.
(** up to [n] more, each tried first if greedy *)
Fixpoint ropt (greedy : bool) (a : re) (n : nat) : re :=
  match n with
  | O => REmpty
  | S n => if greedy then RAlt (RCat a (ropt greedy a n)) REmpty else RAlt REmpty (RCat a (ropt greedy a n))
  end.
Definition rrepeat (greedy : bool) (a : re) (lo : nat) (hi : option nat) : re :=
  match hi with
  | None => rpow a lo (RStar greedy a)
  | Some hi => rpow a lo (ropt greedy a (hi - lo))
  end.

Definition push (f : frame) (r : re) (l : last_item) : frame := Frame (fgroup f) (falts f) (r :: fitems f) l (fcounted f).
(** put a repetition in the place of the last item *)
Definition apply_op (f : frame) (lo : nat) (hi : option nat) (counted : bool) : option frame + unit :=
  match flast f, fitems f with
  | Nothing, _ | _, [] => inl None                                   (* missing argument to repetition operator *)
  | Operator _ _ _ _, _ | Reluctant _, _ => inl None                 (* invalid nested repetition operator *)
  | last, a :: items =>
      let inner := match last with OperandRep => true | _ => false end in
      if (counted && inner) || ((match hi with None => true | _ => false end) && nullable a) then inr tt
      else inl (Some (Frame (fgroup f) (falts f) (rrepeat true a lo hi :: items) (Operator a lo hi (counted || inner)) (fcounted f || counted || inner)))
  end.
Definition with_op (f : frame) (below : list frame) (g : nat) (lo : nat) (hi : option nat) (counted : bool) : pstate :=
  match apply_op f lo hi counted with
  | inl (Some f') => PState MPlain f' below g
  | inl None => PBad
  | inr _ => POutside
  end.

Definition is_digit (c : Z) : bool := (48 <=? c) && (c <=? 57).
Definition is_alnum (c : Z) : bool := is_digit c || ((65 <=? c) && (c <=? 90)) || ((97 <=? c) && (c <=? 122)).
Definition perl_class (c : Z) : option re :=
  match c with
  | 100 => Some (RClass false [(48, 57)]) | 68 => Some (RClass true [(48, 57)])
  | 119 => Some (RClass false [(48, 57); (65, 90); (95, 95); (97, 122)]) | 87 => Some (RClass true [(48, 57); (65, 90); (95, 95); (97, 122)])
  | 115 => Some (RClass false [(9, 10); (12, 13); (32, 32)]) | 83 => Some (RClass true [(9, 10); (12, 13); (32, 32)])
  | _ => None
  end.
(** one more digit of a count; numbers above 1000 are all the same; a number with a leading zero makes the brace literal text *)
Definition digits_add (n : option nat) (c : Z) : option nat :=
  match n with
  | None => Some (Z.to_nat (c - 48))
  | Some O => None
  | Some n => Some (Nat.min 1001 (n * 10 + Z.to_nat (c - 48)))%nat
  end.

(** regexp/syntax/parse.go: one rune outside brackets, braces and escapes *)
Definition plain_step (c : Z) (f : frame) (below : list frame) (g : nat) : pstate :=
  match c with
  | 40 (* ( *) => PState MOpen f below g
  | 41 (* ) *) =>
      match below with
      | [] => PBad
      | f' :: below =>
          PState MPlain (Frame (fgroup f') (falts f') (RGroup (fgroup f) (frame_re f) :: fitems f')
                           (if fcounted f then OperandRep else Operand) (fcounted f' || fcounted f)) below g
      end
  | 124 (* | *) => PState MPlain (Frame (fgroup f) (items_re (fitems f) :: falts f) [] Nothing (fcounted f)) below g
  | 91 (* [ *) => PState MBracket f below g
  | 92 (* \ *) => PState MEscape f below g
  | 46 (* . *) => PState MPlain (push f (RClass true [(10, 10)]) Operand) below g
  | 94 (* ^ *) => PState MPlain (push f RBol Operand) below g
  | 36 (* $ *) => PState MPlain (push f REol Operand) below g
  | 42 (* * *) => with_op f below g 0 None false
  | 43 (* + *) => with_op f below g 1 None false
  | 63 (* ? *) =>
      match flast f, fitems f with
      | Operator a lo hi counted, _ :: items =>
          PState MPlain (Frame (fgroup f) (falts f) (rrepeat false a lo hi :: items) (Reluctant counted) (fcounted f)) below g
      | _, _ => with_op f below g 0 (Some 1%nat) false
      end
  | 123 (* { *) => PState (MCount None) f below g
  | _ => PState MPlain (push f (rchar c) Operand) below g
  end.
Definition step (s : pstate) (c : Z) : pstate :=
  match s with
  | PState m f below g =>
      match m with
      | MPlain => plain_step c f below g
      | MOpen =>
          if c =? 63 then POutside
          else plain_step c (Frame (S g) [] [] Nothing false) (f :: below) (S g)
      | MEscape =>
          if (c <? 128) && negb (is_alnum c) then PState MPlain (push f (rchar c) Operand) below g
          else match perl_class c with Some r => PState MPlain (push f r Operand) below g | None => POutside end
      | MBracket =>
          if c =? 94 then PState (MClass true true []) f below g
          else if c =? 92 then PState (MClassEscape false [] None) f below g
          else PState (MClassLo false [] c (c =? 91)) f below g
      | MClass neg first ranges =>
          if (c =? 93) && negb first then PState MPlain (push f (RClass neg ranges) Operand) below g
          else if c =? 92 then PState (MClassEscape neg ranges None) f below g
          else PState (MClassLo neg ranges c (c =? 91)) f below g
      | MClassEscape neg ranges lo =>
          if (c <? 128) && negb (is_alnum c)
          then match lo with
               | None => PState (MClassLo neg ranges c false) f below g
               | Some lo => if c <? lo then PBad else PState (MClass neg false ((lo, c) :: ranges)) f below g
               end
          else POutside
      | MClassLo neg ranges lo bracket =>
          if c =? 45 then PState (MClassDash neg ranges lo) f below g
          else if c =? 93 then PState MPlain (push f (RClass neg ((lo, lo) :: ranges)) Operand) below g
          else if bracket && (c =? 58) then POutside
          else if c =? 92 then PState (MClassEscape neg ((lo, lo) :: ranges) None) f below g
          else PState (MClassLo neg ((lo, lo) :: ranges) c (c =? 91)) f below g
      | MClassDash neg ranges lo =>
          if c =? 93 then PState MPlain (push f (RClass neg ((45, 45) :: (lo, lo) :: ranges)) Operand) below g
          else if c =? 92 then PState (MClassEscape neg ranges (Some lo)) f below g
          else if c <? lo then PBad else PState (MClass neg false ((lo, c) :: ranges)) f below g
      | MCount n =>
          if is_digit c then match digits_add n c with Some n => PState (MCount (Some n)) f below g | None => POutside end
          else match n with
               | None => POutside
               | Some n => if c =? 125 then (if (1000 <? n)%nat then PBad else with_op f below g n (Some n) true)
                           else if c =? 44 then PState (MCountMax n None) f below g else POutside
               end
      | MCountMax n m =>
          if is_digit c then match digits_add m c with Some m => PState (MCountMax n (Some m)) f below g | None => POutside end
          else if c =? 125 then match m with
                                | None => if (1000 <? n)%nat then PBad else with_op f below g n None true
                                | Some m => if (m <? n)%nat || (1000 <? m)%nat then PBad else with_op f below g n (Some m) true
                                end
          else POutside
      end
  | s => s
  end.
Definition pstart : pstate := PState MPlain (Frame 0 [] [] Nothing false) [] 0.
Inductive compiled : Type := Compiled (groups : nat) (r : re) | Rejected | Outside.
(** at the end of the pattern; an unfinished brace would be literal text *)
Definition pfinish (s : pstate) : compiled :=
  match s with
  | PState MPlain f [] g => Compiled g (frame_re f)
  | PState (MCount _) _ _ _ | PState (MCountMax _ _) _ _ _ => Outside
  | PState _ _ _ _ => Rejected
  | PBad => Rejected
  | POutside => Outside
  end.
(** a byte of a pattern that is not UTF-8 *)
Definition ill (x : cell) : bool := match x with (65533, [_]) => true | _ => false end.
Definition compile (pattern : str) : compiled :=
  let cs := cells_of pattern in
  if existsb ill cs then Rejected else pfinish (fold_left step (List.map fst cs) pstart).

(** what a Regexp holds: the number of groups and the expression *)
Definition regexp : Type := (nat * re)%type.
(** the second result of regexp.Compile; Outside is treated as an error here, and kept apart by [compile] *)
Definition compile_opt (pattern : str) : option regexp := match compile pattern with Compiled g r => Some (g, r) | _ => None end.
(** Regexp.FindStringSubmatch *)
Definition find_submatch (x : regexp) (input : str) : option (list str) :=
  let cs := cells_of input in
  match search cs (snd x) (S (List.length cs)) 0 with
  | Some (p, q, c) => Some (bytes_between cs p q :: List.map (group_text cs c) (seq 1 (fst x)))
  | None => None
  end.

(** rest/rest.go:25 *)
Definition UUIDGroup : str := text "([0-9A-Fa-f]{8}-[0-9A-Fa-f]{4}-[0-9A-Fa-f]{4}-[0-9A-Fa-f]{4}-[0-9A-Fa-f]{12})".
