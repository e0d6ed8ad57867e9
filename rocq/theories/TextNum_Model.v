(** Model of the printing of numbers and comments: include/utils/string.h and
    src/gcode_export/gcodeExport.cpp:572-589.

    Characters are [ascii]; text is a list of characters.  A [char] buffer is a list of slots, where [None] is
    a character that has not been written yet: reading it, or reading or writing outside the buffer, is [UB]. *)
From Coq Require Import ZArith QArith Qabs Qround Ascii.
From stdpp Require Import list.
From Verif Require Import Common.

Notation text := (list ascii).
Definition NUL : ascii := ascii_of_nat 0.

(** *** What snprintf writes (C standard) *)
(** the digit [d] *)
Definition digit_char (d : Z) : ascii := ascii_of_nat (48 + Z.to_nat d).
(** "%d" of a number that is not negative, at most [fuel] digits *)
Fixpoint digits (fuel : nat) (n : Z) : text :=
  match fuel with
  | O => []
  | S fuel => if n <? 10 then [digit_char n] else digits fuel (n / 10) ++ [digit_char (n mod 10)]
  end%Z.
Definition print_nat (n : Z) : text := digits (S (Z.to_nat (Z.log2 n))) n.
Definition print_int (n : Z) : text := if (n <? 0)%Z then "-"%char :: print_nat (- n) else print_nat n.

(** [q] rounded to the nearest integer, ties to even: the default rounding of printf *)
Definition round_even (q : Q) : Z :=
  let f := Qfloor q in
  match (Qcompare (q - inject_Z f) (1 # 2))%Q with
  | Lt => f
  | Gt => f + 1
  | Eq => if Z.even f then f else f + 1
  end%Z.
(** exactly [k] digits of [n] *)
Fixpoint fixed (k : nat) (n : Z) : text :=
  match k with O => [] | S k => fixed k (n / 10) ++ [digit_char (n mod 10)] end%Z.
(** "%.pF" of a finite value; a negative zero is not distinguished from zero *)
Definition print_fixed (p : nat) (v : Q) : text :=
  let n := round_even (Qabs v * inject_Z (10 ^ Z.of_nat p)) in
  let m := (10 ^ Z.of_nat p)%Z in
  (if Qlt_le_dec v 0 then ["-"%char] else []) ++ print_nat (n / m)
    ++ match p with O => [] | _ => "."%char :: fixed p (n mod m) end.

(** *** buffers *)
Notation buffer := (list (option ascii)).
Definition rd (b : buffer) (i : Z) : res ascii :=
  if (i <? 0)%Z then UB else match b !! Z.to_nat i with Some (Some c) => Ok c | _ => UB end.
Definition wr (b : buffer) (i : Z) (c : ascii) : res buffer :=
  if ((i <? 0) || (Z.of_nat (length b) <=? i))%Z then UB else Ok (<[Z.to_nat i := Some c]> b).
(** snprintf into a fresh buffer of the given size *)
Definition snprintf (size : nat) (t : text) : res buffer :=
  if (size <=? length t)%nat then UB (* the models are about text that fits *)
  else Ok (map Some (t ++ [NUL]) ++ replicate (size - length t - 1) None).
(** operator<<(ostream, const char* ) *)
Fixpoint cstr (b : buffer) : res text :=
  match b with
  | Some c :: b => if (nat_of_ascii c =? 0)%nat then Ok [] else let! t := cstr b in Ok (c :: t)
  | _ => UB
  end.

(** string.h:84-88 *)
Fixpoint count_zeros (fuel : nat) (b : buffer) (char_count trailing_zeros : Z) : res Z :=
  match fuel with
  | O => Ok trailing_zeros
  | S fuel =>
      if (trailing_zeros <? 4)%Z then
        let! c := rd b (char_count - trailing_zeros) in
        if (nat_of_ascii c =? 48)%nat then count_zeros fuel b char_count (trailing_zeros + 1) else Ok trailing_zeros
      else Ok trailing_zeros
  end.
(** string.h:117-122; returns the buffer and the final pos *)
Fixpoint shift (fuel : nat) (b : buffer) (pos end_pos : Z) (prev : ascii) : res (buffer * Z) :=
  match fuel with
  | O => NoFuel
  | S fuel =>
      if (pos <=? end_pos)%Z then
        let! next_prev := rd b pos in
        let! b := wr b pos prev in
        shift fuel b (pos + 1) end_pos next_prev
      else Ok (b, pos)
  end.
(** string.h:67-126: the text written for a coordinate *)
Definition writeInt2mm (coord : Z) : res text :=
  let t := print_int coord in
  let char_count := Z.of_nat (length t) in
  let! b := snprintf 24 t in
  let! tz := count_zeros 4 b char_count 1 in
  let trailing_zeros := (tz - 1)%Z in
  let end_pos := (char_count - trailing_zeros)%Z in
  if (trailing_zeros =? 3)%Z then
    let! b := wr b (char_count - trailing_zeros) NUL in cstr b
  else if (char_count <=? 3)%Z then
    let start := (if coord <? 0 then 1 else 0)%Z in
    let! b := wr b (char_count - trailing_zeros) NUL in
    let! rest := cstr (drop (Z.to_nat start) b) in
    Ok ((if coord <? 0 then ["-"%char] else [])%Z ++ ["0"%char; "."%char]
        ++ replicate (3 - Z.to_nat (char_count - start)) "0"%char ++ rest)
  else
    let! r := shift 5 b (char_count - 3) end_pos "."%char in
    let! b := wr r.1 r.2 NUL in cstr b.

(** string.h:177-180 *)
Fixpoint last_non_zero (fuel : nat) (b : buffer) (i : Z) : res Z :=
  match fuel with
  | O => NoFuel
  | S fuel => let! c := rd b i in if (nat_of_ascii c =? 48)%nat then last_non_zero fuel b (i - 1) else Ok i
  end.
(** string.h:153-191 *)
Definition writeDoubleToStream (precision : nat) (v : Q) : res text :=
  let t := print_fixed precision v in
  let char_count := Z.of_nat (length t) in
  let! b := snprintf 400 t in
  if (char_count <=? 0)%Z then Ok [] else
  let! c := rd b (char_count - Z.of_nat precision - 1) in
  if (nat_of_ascii c =? 46)%nat then
    let! i := last_non_zero (S (length t)) b (char_count - 1) in
    let! c := rd b i in
    let! b := if (nat_of_ascii c =? 46)%nat then wr b i NUL else wr b (i + 1) NUL in
    cstr b
  else cstr b.
(** string.h:201-204 *)
Definition wouldWriteZero (precision : nat) (v : Q) : bool :=
  if Qlt_le_dec (Qabs v * inject_Z (10 ^ Z.of_nat precision)) 1 then true else false.

(** *** comments *)
(** gcodeExport.cpp:40-50; [char] is taken to be signed *)
Definition transliterate (t : text) : text := map (fun c => if (nat_of_ascii c <? 128)%nat then c else "?"%char) t.
Definition newline : ascii := ascii_of_nat 10.
(** gcodeExport.cpp:572-589; [nl] is new_line_ *)
Definition writeComment (nl : text) (t : text) : text :=
  ";"%char :: concat (map (fun c => if (nat_of_ascii c =? 10)%nat then nl ++ [";"%char] else [c]) (transliterate t)) ++ nl.
