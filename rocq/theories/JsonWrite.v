(** Model of encoding/json/write/write.go.  The iteration order of a map is the order of its association list. *)
From Verif Require Import Base Union Rest Json.
Open Scope go_scope.
Open Scope Z_scope.

(** Go's conversion []rune(string): UTF-8 decoding; a byte that does not start a valid encoding (truncated, overlong,
    surrogate or above 10FFFF) gives U+FFFD and the next byte is tried. *)
Definition cont (b : Z) : bool := (128 <=? b) && (b <=? 191).
Fixpoint runes_of (s : list Z) : list Z :=
  match s with
  | [] => []
  | b0 :: s0 =>
      if b0 <? 128 then b0 :: runes_of s0
      else match s0 with
      | b1 :: s1 =>
          if (194 <=? b0) && (b0 <=? 223) && cont b1 then ((b0 - 192) * 64 + (b1 - 128)) :: runes_of s1
          else match s1 with
          | b2 :: s2 =>
              let r3 := (b0 - 224) * 4096 + (b1 - 128) * 64 + (b2 - 128) in
              if (224 <=? b0) && (b0 <=? 239) && cont b1 && cont b2 && (2048 <=? r3) && negb ((55296 <=? r3) && (r3 <=? 57343))
              then r3 :: runes_of s2
              else match s2 with
              | b3 :: s3 =>
                  let r4 := (b0 - 240) * 262144 + (b1 - 128) * 4096 + (b2 - 128) * 64 + (b3 - 128) in
                  if (240 <=? b0) && (b0 <=? 244) && cont b1 && cont b2 && cont b3 && (65536 <=? r4) && (r4 <=? 1114111)
                  then r4 :: runes_of s3
                  else 65533 :: runes_of s0
              | [] => 65533 :: runes_of s0
              end
          | [] => 65533 :: runes_of s0
          end
      | [] => 65533 :: runes_of s0
      end
  end.

Section Write.
  Context {W : Type}.
  Variable dst : W -> list Z -> option err * W.   (* dst.Write(runes...) *)

  (** encoding/json/write/write.go:12-28, Write, with the loops of WriteObject (43-60) and WriteArray (76-86). *)
  Fixpoint write_json (jv : value) (w : W) : outcome (option err * W) :=
    match jv with
    | mkV typ (Four t u s b wh) =>
        match typ with
        | TObject =>
            let '(e, w1) := dst w [123] in
            match e with
            | Some _ => Done (e, w1)
            | None =>
                let! m := check WT wh t in
                (fix go (m : list (str * value)) (i : nat) (w : W) : outcome (option err * W) :=
                   match m with
                   | [] => Done (dst w [125])
                   | (k, v) :: m' =>
                       let data := (if (0 <? i)%nat then [44] else []) ++ [34] ++ runes_of k ++ [34; 58] in
                       let '(e, w1) := dst w data in
                       match e with
                       | Some _ => Done (e, w1)
                       | None =>
                           let! (e2, w2) := write_json v w1 in
                           match e2 with
                           | Some _ => Done (e2, w2)
                           | None => go m' (i + 1)%nat w2
                           end
                       end
                   end) t 0%nat w1
            end
        | TArray =>
            let '(e, w1) := dst w [91] in
            match e with
            | Some _ => Done (e, w1)
            | None =>
                let! l := check WU wh u in
                (fix go (l : list value) (i : nat) (w : W) : outcome (option err * W) :=
                   match l with
                   | [] => Done (dst w [93])
                   | v :: l' =>
                       let '(e, w1) := if (0 <? i)%nat then dst w [44] else (None, w) in
                       match e with
                       | Some _ => Done (e, w1)
                       | None =>
                           let! (e2, w2) := write_json v w1 in
                           match e2 with
                           | Some _ => Done (e2, w2)
                           | None => go l' (i + 1)%nat w2
                           end
                       end
                   end) u 0%nat w1
            end
        | TString => let! s := check WV wh s in Done (dst w ([34] ++ runes_of s ++ [34]))
        | TNumber => let! s := check WV wh s in Done (dst w (runes_of s))
        | TBoolean => let! b := check WW wh b in Done (dst w (runes_of (text_of_bool b)))
        | TInvalid | TNull => Done (dst w [110; 117; 108; 108])
        end
    end.

  (** encoding/json/write/write.go:36-63, WriteObject; 71-88, WriteArray, called directly: AsMap and AsSlice panic, after
      the bracket is written, when the value is of another type. *)
  Definition write_object (jv : value) (w : W) : outcome (option err * W) :=
    if jtype_eqb (typ_of jv) TObject then write_json jv w
    else let '(e, w1) := dst w [123] in match e with Some _ => Done (e, w1) | None => Panicked end.
  Definition write_array (jv : value) (w : W) : outcome (option err * W) :=
    if jtype_eqb (typ_of jv) TArray then write_json jv w
    else let '(e, w1) := dst w [91] in match e with Some _ => Done (e, w1) | None => Panicked end.
End Write.
