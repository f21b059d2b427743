(** Specification vocabulary for readers, UTF-8 and lines. *)
From Verif Require Import Base Readers.
Open Scope Z_scope.

(** One-byte reads return the bytes [bs] one at a time, then no byte and the error [e]. *)
Inductive reads1 {S} (rd : reader S) : S -> list Z -> err -> S -> Prop :=
| reads1_end s e s' : rread rd s 1 = (([], Some e), s') -> reads1 rd s [] e s'
| reads1_byte s b s1 bs e s' :
    rread rd s 1 = (([b], None), s1) -> reads1 rd s1 bs e s' -> reads1 rd s (b :: bs) e s'.

(** The state of the reader after it has ended with [e] in state [s']: closed, if it is a Closer and [e] is EOF. *)
Definition after_close {S} (rd : reader S) (e : err) (s' : S) : S :=
  match e, rclose rd with
  | (EOF | EOI), Some close => snd (close s')
  | _, _ => s'
  end.

(** A reader holding the bytes [bs] then the error [e], which fills every request it has bytes for
    (strings.Reader, bytes.Reader, files). *)
CoInductive holds {S} (rd : reader S) : S -> list Z -> err -> Prop :=
| holds_intro s bs e :
    (forall n, (0 < n)%nat -> exists s',
        rread rd s n = ((firstn n bs, match bs with [] => Some e | _ => None end), s')
        /\ holds rd s' (skipn n bs) e) ->
    holds rd s bs e.

(** Unicode scalar values, and the UTF-8 encoding of one (RFC 3629). *)
Definition scalar (r : Z) : Prop := 0 <= r <= 1114111 /\ ~ (55296 <= r <= 57343).

Definition encode (r : Z) : list Z :=
  if r <? 128 then [r]
  else if r <? 2048 then [192 + r / 64; 128 + r mod 64]
  else if r <? 65536 then [224 + r / 4096; 128 + r / 64 mod 64; 128 + r mod 64]
  else [240 + r / 262144; 128 + r / 4096 mod 64; 128 + r / 64 mod 64; 128 + r mod 64].

(** What the rune reader is found to accept: the same layouts, but any payload, i.e. overlong forms and surrogates
    included; only the upper bound 10FFFF is enforced. *)
Inductive accepts : list Z -> Z -> Prop :=
| acc1 b : 0 <= b < 128 -> accepts [b] b
| acc2 a b : 0 <= a < 32 -> 0 <= b < 64 -> accepts [192 + a; 128 + b] (a * 64 + b)
| acc3 a b c : 0 <= a < 16 -> 0 <= b < 64 -> 0 <= c < 64 ->
    accepts [224 + a; 128 + b; 128 + c] (a * 4096 + b * 64 + c)
| acc4 a b c d : 0 <= a < 8 -> 0 <= b < 64 -> 0 <= c < 64 -> 0 <= d < 64 ->
    a * 262144 + b * 4096 + c * 64 + d <= 1114111 ->
    accepts [240 + a; 128 + b; 128 + c; 128 + d] (a * 262144 + b * 4096 + c * 64 + d).

Definition byte (b : Z) : Prop := 0 <= b < 256.

(** Lines of a text: each line ends at LF (10), CR (13) or CR LF. *)
Definition plain (l : list Z) : Prop := ~ In 10 l /\ ~ In 13 l.

Inductive terminator : list Z -> Prop :=
| term_lf : terminator [10]
| term_cr : terminator [13]
| term_crlf : terminator [13; 10].

(** [split_lines text ls rest]: [ls] are the terminated lines, [rest] the unterminated text at the end; a CR is only
    a terminator of its own when no LF follows. *)
Inductive split_lines : list Z -> list (list Z) -> list Z -> Prop :=
| split_rest l : plain l -> split_lines l [] l
| split_line l t text ls rest :
    plain l -> terminator t -> (t = [13] -> hd_error text <> Some 10) -> split_lines text ls rest ->
    split_lines (l ++ t ++ text) (l :: ls) rest.

(** No CR-only terminated line is followed (later) by an LF-only terminator: the texts on which the reader is
    right. *)
Inductive cr_safe : bool -> list Z -> Prop :=   (* flag: a lone CR has been seen *)
| safe_end b : cr_safe b []
| safe_crlf b rest : cr_safe false rest -> cr_safe b (13 :: 10 :: rest)
| safe_cr b rest : hd_error rest <> Some 10 -> cr_safe true rest -> cr_safe b (13 :: rest)
| safe_lf rest : cr_safe false rest -> cr_safe false (10 :: rest)
| safe_other b c rest : c <> 10 -> c <> 13 -> cr_safe b rest -> cr_safe b (c :: rest).

(** EOF is translated to EOI, other errors are passed on. *)
Definition translate (e : err) : err := match e with EOF => EOI | _ => e end.

(** the final error as seen by the caller: Close is called when the input ends *)
Definition final_error {S} (rd : reader S) (e : err) (s : S) : err :=
  match translate e with
  | EOI => match rclose rd with Some c => match fst (c s) with Some ce => ce | None => EOI end | None => EOI end
  | e' => e'
  end.

(** The lines a caller gets: an unterminated non-empty last line counts when the input ended, and is dropped when it
    broke off with an error. *)
Definition out_lines (ls : list (list Z)) (rest : list Z) (e : err) : list (list Z) :=
  match translate e with EOI => match rest with [] => ls | _ => ls ++ [rest] end | _ => ls end.

(** Go's conversion of a string to runes: the encodings it consists of, and U+FFFD for every byte at which none starts *)
Inductive decodes : list Z -> list Z -> Prop :=
| decodes_end : decodes [] []
| decodes_rune r rest out : scalar r -> decodes rest out -> decodes (encode r ++ rest) (r :: out)
| decodes_bad b rest out : (forall r rest', scalar r -> b :: rest <> encode r ++ rest') -> decodes rest out -> decodes (b :: rest) (65533 :: out).
