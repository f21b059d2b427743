(** Model of the io.Reader based generators of iter/gen.go. Bytes and runes are Z. *)
From Verif Require Import Base Iter.
Open Scope go_scope.
Open Scope Z_scope.

(** An io.Reader (with optional io.Closer): one Read call for [n] bytes returns the bytes placed in the buffer
    and the error.  The documented io.Reader contract only bounds the number of bytes by [n]. *)
Record reader (S : Type) : Type := mkReader {
  rread : S -> nat -> (list Z * option err) * S;
  rclose : option (S -> option err * S)
}.
Arguments mkReader {S}.
Arguments rread {S}.
Arguments rclose {S}.

(** iter/gen.go:180-206, ReaderIterGen on a non-nil reader.  State: (done, buf[0], reader state).  The [err] of
    line 193 shadows the captured one, which therefore stays EOI for ever. *)
Definition bytes_gen {S} (rd : reader S) : stepfn (bool * Z * S) Z := fun _ st =>
  let '(done, b0, s) := st in
  if (done : bool) then Done ((0, Some EOI), st) else
  let '((data, e), s1) := rread rd s 1 in
  let b1 := hd b0 data in (* nothing read: buf keeps its old byte *)
  match e with
  | Some e =>
      let e' := match e with EOF => EOI | _ => e end in (* funcs.Ternary(err == EOF, EOI, err) *)
      match e' with
      | EOI =>
          match rclose rd with
          | Some close =>
              let '(cerr, s2) := close s1 in
              match cerr with
              | Some ce => Done ((0, Some ce), (true, b1, s2))
              | None => Done ((0, Some e'), (true, b1, s2))
              end
          | None => Done ((0, Some e'), (true, b1, s1))
          end
      | _ => Done ((0, Some e'), (true, b1, s1))
      end
  | None => Done ((b1, None), (false, b1, s1))
  end.
Definition bytes_init {S} (s : S) : bool * Z * S := (false, 0, s).

(** iter/gen.go:265-287: number of extra bytes announced by the first byte; None for the default case. *)
Definition extra_bytes (b : Z) : option nat :=
  if Z.land b 128 =? 0 then Some 0%nat
  else if Z.land b 224 =? 192 then Some 1%nat
  else if Z.land b 240 =? 224 then Some 2%nat
  else if Z.land b 248 =? 240 then Some 3%nat
  else None.

(** iter/gen.go:308-331: the rune denoted by first byte [b] and extra bytes [buf] (already checked to start with
    10); None when it exceeds utf8.MaxRune. *)
Definition combine_bytes (b : Z) (buf : list Z) : option Z :=
  match buf with
  | [b0] => Some (Z.lor (Z.shiftl (Z.land b 31) 6) (Z.land b0 63))
  | [b0; b1] =>
      Some (Z.lor (Z.lor (Z.shiftl (Z.land b 15) 12) (Z.shiftl (Z.land b0 63) 6)) (Z.land b1 63))
  | [b0; b1; b2] =>
      let r := Z.lor (Z.lor (Z.lor (Z.shiftl (Z.land b 7) 18) (Z.shiftl (Z.land b0 63) 12))
                            (Z.shiftl (Z.land b1 63) 6)) (Z.land b2 63) in
      if 1114111 <? r then None else Some r
  | _ => None
  end.

(** iter/gen.go:212-333, ReaderAsRunesIterGen on a non-nil reader.  State: (done, err, reader state). Errors after the first byte
    (lines 292-304, 325-328) do not set done. *)
Definition runes_gen {S} (rd : reader S) : stepfn (bool * option err * S) Z := fun _ st =>
  let '(done, e0, s) := st in
  if (done : bool) then Done ((0, e0), st) else
  let '((data, e), s1) := rread rd s 1 in
  match data, e with
  | [], None => Done ((0, Some EOI), (true, Some EOI, s1))
  | _, Some e =>
      let e' := match e with EOF => EOI | _ => e end in
      Done ((0, Some e'), (true, Some e', s1))
  | b :: _, None =>
      match extra_bytes b with
      | Some 0%nat => Done ((b, None), (false, None, s1))
      | None => Done ((0, Some InvalidUTF8), (true, Some InvalidUTF8, s1))
      | Some eb =>
          let '((buf, e), s2) := rread rd s1 eb in
          if negb (length buf =? eb)%nat || match e with Some _ => true | None => false end then
            let e' := match e with None | Some EOF => InvalidUTF8 | Some e => e end in
            Done ((0, Some e'), (false, Some e', s2))
          else if negb (forallb (fun x => Z.land x 192 =? 128) buf) then
            Done ((0, Some InvalidUTF8), (false, Some InvalidUTF8, s2))
          else
            match combine_bytes b buf with
            | Some r => Done ((r, None), (false, None, s2))
            | None => Done ((0, Some InvalidUTF8), (false, Some InvalidUTF8, s2))
            end
      end
  end.
Definition runes_init {S} (s : S) : bool * option err * S := (false, Some EOI, s).

(** strings.NewReader / bytes.NewReader (Go standard library, trusted): Read(p) on a non-empty p copies
    min(len(p), remaining) bytes with a nil error while bytes remain, then returns (0, io.EOF). *)
Definition string_reader : reader (list Z) :=
  mkReader (fun bs n => match bs with
                        | [] => (([], Some EOF), [])
                        | _ => ((firstn n bs, None), skipn n bs)
                        end) None.

(** iter/gen.go:347-394, readLines over a rune function [it].  State: (str is local to a call, so not kept;) lastCR, err,
    state of [it]. [str] accumulates in reading order.
    Simplification: a line is the list of runes written to the strings.Builder, not their bytes. *)
Fixpoint lines_loop {S} (it : stepfn S Z) (loop fuel : nat) (str : list Z) (cr : bool) (s : S)
  : outcome (ret (list Z) * (bool * option err * S)) :=
  match loop with
  | O => OutOfFuel
  | Datatypes.S loop' =>
      let! (r, s1) := it fuel s in
      match r with
      | (_, Some e) =>
          let e' := match e with EOF => EOI | _ => e end in
          match e' with
          | EOI =>
              if (0 <? length str)%nat then Done ((str, None), (cr, Some e', s1))
              else Done (([], Some e'), (cr, Some e', s1))
          | _ => Done (([], Some e'), (cr, Some e', s1))
          end
      | (c, None) =>
          if c =? 13 then Done ((str, None), (true, None, s1))
          else if c =? 10 then
            if cr then lines_loop it loop' fuel str false s1
            else Done ((str, None), (cr, None, s1))
          else lines_loop it loop' fuel (str ++ [c]) cr s1
      end
  end.
Definition lines_gen {S} (it : stepfn S Z) : stepfn (bool * option err * S) (list Z) := fun fuel st =>
  let '(cr, e, s) := st in
  match e with
  | Some e => Done (([], Some e), st)
  | None => lines_loop it fuel fuel [] cr s
  end.
Definition lines_init {S} (s : S) : bool * option err * S := (false, None, s).

(** iter/gen.go:182, 243: with a nil reader done is true from the start *)
Definition bytes_init_nil {S} (s : S) : bool * Z * S := (true, 0, s).
Definition runes_init_nil {S} (s : S) : bool * option err * S := (true, Some EOI, s).
