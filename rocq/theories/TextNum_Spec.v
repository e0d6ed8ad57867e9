(** Reading a number from text: a specification that is independent of the printing. *)
From Coq Require Import ZArith QArith Ascii.
From stdpp Require Import list.

Definition digit_value (c : ascii) : option Z :=
  let n := nat_of_ascii c in if (48 <=? n)%nat && (n <=? 57)%nat then Some (Z.of_nat n - 48)%Z else None.
(** the digits [s] after a number [acc] *)
Fixpoint read_digits (acc : Z) (s : list ascii) : option Z :=
  match s with
  | [] => Some acc
  | c :: s => match digit_value c with Some d => read_digits (acc * 10 + d) s | None => None end
  end.
(** split at the first point *)
Fixpoint split_point (s : list ascii) : list ascii * option (list ascii) :=
  match s with
  | [] => ([], None)
  | c :: s => if (nat_of_ascii c =? 46)%nat then ([], Some s) else let r := split_point s in (c :: r.1, r.2)
  end.
(** digits with or without a point, at least one digit: the value is the number without the point, divided by 10
    for each digit after the point *)
Definition read_unsigned (s : list ascii) : option Q :=
  let r := split_point s in
  let f := default [] r.2 in
  if (length (r.1 ++ f) =? 0)%nat then None
  else match read_digits 0 (r.1 ++ f) with
       | Some n => Some (inject_Z n / inject_Z (10 ^ Z.of_nat (length f)))%Q
       | None => None
       end.
Definition read_number (s : list ascii) : option Q :=
  match s with
  | c :: s' => if (nat_of_ascii c =? 45)%nat then match read_unsigned s' with Some q => Some (- q)%Q | None => None end
               else read_unsigned s
  | [] => None
  end.
(** the digits after the point, if there is one *)
Definition decimals (s : list ascii) : option (list ascii) := (split_point s).2.
(** At most [k] decimals; if there is a point, there are decimals and the last one is not 0. *)
Definition tidy (k : nat) (s : list ascii) : Prop :=
  match decimals s with
  | None => True
  | Some f => (length f <= k)%nat /\ exists f' c, f = f' ++ [c] /\ c <> "0"%char
  end.
