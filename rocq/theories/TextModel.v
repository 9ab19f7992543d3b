(** Text as the file readers and writers see it: splitting a line into items with
    [stream >> item] (mps/mps.h:95-101), the C function [atof], and the output of
    [ofs << int] and [ofs << double] with the default format (precision 6, "%g").
    Numbers are rationals: rounding to double, overflow and the sign of zero are not
    modelled. *)
From Coq Require Import List ZArith QArith Qabs Qround Qpower Bool String Ascii.
Import ListNotations.
Local Open Scope Z_scope.

(** isspace of the classic locale: \t \n \v \f \r and the blank. *)
Definition is_space (c : ascii) : bool :=
  let n := nat_of_ascii c in (Nat.leb 9 n && Nat.leb n 13) || Nat.eqb n 32.
Definition is_empty (s : string) : bool := match s with EmptyString => true | _ => false end.
(** while (stream >> item) items.push_back(item) (mps.h:99-101).  [cur]: the item
    being read. *)
Fixpoint split_items (s cur : string) : list string :=
  match s with
  | EmptyString => if is_empty cur then [] else [cur]
  | String c tl =>
      if is_space c then if is_empty cur then split_items tl EmptyString else cur :: split_items tl EmptyString
      else split_items tl (append cur (String c EmptyString))
  end.
Definition items_of (line : string) : list string := split_items line EmptyString.

(** ** atof *)
Definition digit_of (c : ascii) : option Z :=
  let n := nat_of_ascii c in if Nat.leb 48 n && Nat.leb n 57 then Some (Z.of_nat n - 48) else None.
(** The digits at the front: value (continuing [acc]), their number, the rest. *)
Fixpoint span_digits (s : string) (acc k : Z) : Z * Z * string :=
  match s with
  | String c tl => match digit_of c with Some d => span_digits tl (10 * acc + d) (k + 1) | None => (acc, k, s) end
  | EmptyString => (acc, k, s)
  end.
Definition split_sign (s : string) : bool * string :=
  match s with
  | String c tl => if Ascii.eqb c "-"%char then (true, tl) else if Ascii.eqb c "+"%char then (false, tl) else (false, s)
  | EmptyString => (false, s)
  end.
Definition pow10 (e : Z) : Q := Qpower 10 e.
Definition exponent_of (s : string) : Z :=
  match s with
  | String c tl =>
      if Ascii.eqb c "e"%char || Ascii.eqb c "E"%char then
        let (neg, t) := split_sign tl in
        let '(v, k, _) := span_digits t 0 0 in
        if k =? 0 then 0 else if neg then - v else v
      else 0
  | EmptyString => 0
  end.
(** inf, nan and hexadecimal numbers are not modelled. *)
Definition special_number (s : string) : bool :=
  match s with
  | String c tl =>
      Ascii.eqb c "i"%char || Ascii.eqb c "I"%char || Ascii.eqb c "n"%char || Ascii.eqb c "N"%char ||
      (Ascii.eqb c "0"%char && match tl with String d _ => Ascii.eqb d "x"%char || Ascii.eqb d "X"%char | EmptyString => false end)
  | EmptyString => false
  end.
Definition after_point (s : string) (ip : Z) : Z * Z * string :=
  match s with
  | String c tl => if Ascii.eqb c "."%char then span_digits tl ip 0 else (ip, 0, s)
  | EmptyString => (ip, 0, s)
  end.
(** [None]: a special number. *)
Definition atof (s : string) : option Q :=
  let (neg, t) := split_sign s in
  if special_number t then None
  else
    let '(ip, ki, r) := span_digits t 0 0 in
    let '(m, kf, r') := after_point r ip in
    if ki + kf =? 0 then Some 0%Q
    else let q := (inject_Z m * pow10 (exponent_of r' - kf))%Q in Some (if neg then (- q)%Q else q).

(** ** Output of numbers *)
Definition digit_char (d : Z) : ascii := ascii_of_nat (Z.to_nat (48 + d)).
(** The last k decimal digits of m. *)
Fixpoint fixed_digits (k : nat) (m : Z) : string :=
  match k with O => EmptyString | S k' => append (fixed_digits k' (m / 10)) (String (digit_char (m mod 10)) EmptyString) end.
Fixpoint count_digits (fuel : nat) (m : Z) : nat :=
  match fuel with O => 1%nat | S f => if m <? 10 then 1%nat else S (count_digits f (m / 10)) end.
Definition ndigits (m : Z) : nat := count_digits (Z.to_nat (Z.log2 m)) m.
(** ofs << int. *)
Definition print_int (z : Z) : string :=
  if z <? 0 then append "-" (fixed_digits (ndigits (- z)) (- z)) else fixed_digits (ndigits z) z.

Definition round_half_even (s : Q) : Z :=
  let f := Qfloor s in
  match ((s - inject_Z f) ?= (1 # 2))%Q with
  | Lt => f | Gt => f + 1 | Eq => if Z.even f then f else f + 1
  end.
(** floor(log10 m) of a positive m. *)
Definition decade (m : Q) : Z :=
  let e := Z.of_nat (ndigits (Qnum m)) - Z.of_nat (ndigits (Zpos (Qden m))) in
  if Qle_bool (pow10 e) m then e else e - 1.
(** Six significant digits and the decimal exponent of the first one. *)
Definition mantissa (m : Q) : Z * Z :=
  let x := decade m in
  let d := round_half_even (m * pow10 (5 - x))%Q in
  if d =? 1000000 then (100000, x + 1) else (d, x).
Fixpoint strip_zeros (s : string) : string :=
  match s with
  | EmptyString => EmptyString
  | String c tl => match strip_zeros tl with
                   | EmptyString => if Ascii.eqb c "0"%char then EmptyString else String c EmptyString
                   | t => String c t
                   end
  end.
Definition fraction (s : string) : string :=
  match strip_zeros s with EmptyString => EmptyString | t => append "." t end.
(** ofs << double: "%g" with precision 6. *)
Definition print_double (q : Q) : string :=
  if Qnum q =? 0 then "0"%string
  else
    let (d, x) := mantissa (Qabs q) in
    let body :=
      if (-4 <=? x) && (x <? 6) then
        append (fixed_digits (Z.to_nat (Z.max 1 (x + 1))) (d / 10 ^ (5 - x)))
               (fraction (fixed_digits (Z.to_nat (5 - x)) (d mod 10 ^ (5 - x))))
      else
        append (fixed_digits 1 (d / 10 ^ 5))
          (append (fraction (fixed_digits 5 (d mod 10 ^ 5)))
             (append (if x <? 0 then "e-" else "e+") (fixed_digits (Nat.max 2 (ndigits (Z.abs x))) (Z.abs x))))
    in if Qnum q <? 0 then append "-" body else body.
