(** Model of io/writer/writer.go, io/writer/gen.go and io/io.go. *)
From Verif Require Import Base ReaderSpec.
Open Scope Z_scope.

(** io/writer/writer.go:80-88, WriterImpl.Write over a writing function with captured state [S]. *)
Fixpoint write {S T} (fn : S -> T -> option err * S) (s : S) (vals : list T) : option err * S :=
  match vals with
  | [] => (None, s)
  | val :: vals' =>
      let '(e, s1) := fn s val in
      match e with
      | Some e => (Some e, s1)
      | None => write fn s1 vals'
      end
  end.

(** io/writer/gen.go:25-30, SliceWriterGen: the state is the slice pointed to. *)
Definition slice_writer {T} (slc : list T) (val : T) : option err * list T := (None, slc ++ [val]).

(** io/writer/gen.go:34-39, MapWriterGen: the state is the map, as a lookup function. *)
Definition map_writer {K V} (eqb : K -> K -> bool) (m : K -> option V) (val : K * V) : option err * (K -> option V) :=
  (None, fun k => if eqb k (fst val) then Some (snd val) else m k).

(** An io.Writer: Write(p) returns the number of bytes written and an error. *)
Definition iowriter (S : Type) : Type := S -> list Z -> (Z * option err) * S.

(** The custom errors of io/writer/gen.go:16-18, told apart from the writer's own. *)
Definition errNotWritten : err := UserErr (-1).

(** io/writer/gen.go:45-58, IOWriterGen. *)
Definition byte_writer {S} (dst : iowriter S) (s : S) (val : Z) : option err * S :=
  let '((n, e), s1) := dst s [val] in
  match e with
  | Some e => (Some e, s1)
  | None => if n =? 0 then (Some errNotWritten, s1) else (None, s1)
  end.

(** Common shape of io/writer/gen.go:64-77, 83-96, 103-120: write the bytes [p], error if fewer were written. *)
Definition write_bytes {S} (dst : iowriter S) (s : S) (p : list Z) : option err * S :=
  let '((n, e), s1) := dst s p in
  match e with
  | Some e => (Some e, s1)
  | None => if n <? Z.of_nat (length p) then (Some errNotWritten, s1) else (None, s1)
  end.

(** Go's conversion string(rune): UTF-8, with U+FFFD for anything that is not a scalar value. *)
Definition is_scalar (r : Z) : bool :=
  (0 <=? r) && (r <=? 1114111) && negb ((55296 <=? r) && (r <=? 57343)).
Definition string_of_rune (r : Z) : list Z := encode (if is_scalar r then r else 65533).

(** io/writer/gen.go:64-77, IOWriterAsRunesGen. *)
Definition rune_writer {S} (dst : iowriter S) (s : S) (val : Z) : option err * S :=
  write_bytes dst s (string_of_rune val).

(** io/writer/gen.go:83-96, IOWriterAsStringsGen; a Go string is its bytes. *)
Definition string_writer {S} (dst : iowriter S) (s : S) (val : list Z) : option err * S :=
  write_bytes dst s val.

(** io/writer/gen.go:103-120, IOWriterAsLinesGen; [eol] is osEOLSequence (line 20): LF, or CR LF on Windows. *)
Definition line_writer {S} (eol : list Z) (dst : iowriter S) (s : S) (val : list Z) : option err * S :=
  write_bytes dst s (val ++ eol).

(** bytes.Buffer as destination (Go standard library, trusted): appends everything. *)
Definition buffer_writer : iowriter (list Z) := fun s p => ((Z.of_nat (length p), None), s ++ p).

(** io/io.go:36-48, ErrorReader.Read.  [input] is r.input, [spare] the bytes between its length and its capacity.
    State: pos.  A request for [n] bytes; line 45 slices r.input[pos:pos+numBytes], which panics beyond the
    capacity. *)
Definition error_read (input spare : list Z) (e : err) (pos n : nat) : outcome ((list Z * option err) * nat) :=
  if (length input <=? pos)%nat then Done (([], Some e), pos) else
  let numBytes := Nat.min (length input) n in
  if (length (input ++ spare) <? pos + numBytes)%nat then Panicked else
  Done ((firstn numBytes (skipn pos (input ++ spare)), None), (pos + numBytes)%nat).

(** A sequence of reads with the given request sizes. *)
Fixpoint error_reads (input spare : list Z) (e : err) (pos : nat) (ns : list nat)
  : outcome (list (list Z * option err) * nat) :=
  match ns with
  | [] => Done ([], pos)
  | n :: ns' =>
      match error_read input spare e pos n with
      | Done (r, pos1) =>
          match error_reads input spare e pos1 ns' with
          | Done (rs, pos2) => Done (r :: rs, pos2)
          | o => o
          end
      | Panicked => Panicked
      | OutOfFuel => OutOfFuel
      end
  end.

(** io/io.go:64-80, ErrorWriter.Write.  State: output. *)
Definition error_write (count : Z) (e : err) (output : list Z) (p : list Z) : (Z * option err) * list Z :=
  if Z.of_nat (length output) =? count then ((0, Some e), output) else
  if count <? 0 then ((0, None), output) else
  let numBytes := Z.min (Z.of_nat (length p)) (count - Z.of_nat (length output)) in
  ((numBytes, None), output ++ firstn (Z.to_nat numBytes) p).

Fixpoint error_writes (count : Z) (e : err) (output : list Z) (ps : list (list Z)) : list (Z * option err) * list Z :=
  match ps with
  | [] => ([], output)
  | p :: ps' =>
      let '(r, out1) := error_write count e output p in
      let '(rs, out2) := error_writes count e out1 ps' in
      (r :: rs, out2)
  end.
