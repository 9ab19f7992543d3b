(** JSON values, their files and the tokenizer and parser that read them:
    utility/json/json.h.  Doubles are rationals (rounding to double is not modelled,
    the range check of [std::stod] is); a file is the string of its characters. *)
From Coq Require Import List ZArith QArith Qabs Bool String Ascii.
From Verif Require Import TextModel PresolveModel.
Import ListNotations.
Local Open Scope Z_scope.

(** The C++ type of an integer held by a [std::any]: [int]; one of short, unsigned
    short, unsigned int, long, unsigned long; long long or unsigned long long. *)
Inductive ikind := KInt | KLong | KLongLong.
(** A value held by a [std::any] (json.h:18-138).  [JSpecial t]: a double that is not a
    finite decimal, as the text t of it (inf, nan; also hexadecimal on reading).  Types
    the writer does not know, nullptr among them, are [JNull] (json.h:268-273, 415-420);
    float and long double are [JReal].  The map from keys to positions
    (json.h:20, 45) is [last_with]. *)
Inductive json :=
  | JNull | JInt (k : ikind) (z : Z) | JReal (q : Q) | JSpecial (t : string) | JBool (b : bool) | JStr (s : string)
  | JObj (l : list (string * json)) | JArr (l : list json).

(** JsonObject::find/at/operator[] (json.h:43-64): emplace_back overwrites the position
    of the key, so the last element with the key is the one found. *)
Fixpoint last_with (key : string) (l : list (string * json)) : option json :=
  match l with
  | [] => None
  | (k, v) :: tl => match last_with key tl with Some w => Some w | None => if String.eqb k key then Some v else None end
  end.

(** ** Writing *)
(** Seven significant digits and the decimal exponent of the first one. *)
Definition mantissa7 (m : Q) : Z * Z :=
  let x := decade m in
  let d := round_half_even (m * pow10 (6 - x))%Q in
  if d =? 10000000 then (1000000, x + 1) else (d, x).
(** os << std::scientific << double (json.h:224-238, 374-391): "%e" with the default
    precision 6. *)
Definition print_sci (q : Q) : string :=
  if Qnum q =? 0 then "0.000000e+00"%string
  else
    let (d, x) := mantissa7 (Qabs q) in
    let body :=
      append (fixed_digits 1 (d / 10 ^ 6))
        (append (append "." (fixed_digits 6 (d mod 10 ^ 6)))
           (append (if x <? 0 then "e-" else "e+") (fixed_digits (Nat.max 2 (ndigits (Z.abs x))) (Z.abs x))))
    in if Qnum q <? 0 then append "-" body else body.

Definition QUOTE : ascii := ascii_of_nat 34.
Definition LF : ascii := ascii_of_nat 10.
Definition CR : ascii := ascii_of_nat 13.
Definition TAB : ascii := ascii_of_nat 9.
Definition quoted (s : string) : string := String QUOTE (append s (String QUOTE EmptyString)).
Definition newline : string := String LF EmptyString.
(** indent_space (json.h:159-166). *)
Fixpoint indent (n : nat) : string := match n with O => EmptyString | S n => append "    " (indent n) end.
Definition bool_text (b : bool) : string := if b then "true" else "false".

(** operator<< for objects (json.h:172-282) and arrays (311-427); [n]: indent_level. *)
Fixpoint text (n : nat) (v : json) : string :=
  match v with
  | JNull => "null"
  | JInt _ z => print_int z
  | JReal q => print_sci q
  | JSpecial t => t
  | JBool b => bool_text b
  | JStr s => quoted s
  | JObj [] => "{}"
  | JObj l =>
      append "{ " (append
        ((fix elements (separator : string) (l : list (string * json)) : string :=
           match l with
           | [] => EmptyString
           | (k, v) :: tl =>
               append separator (append newline (append (indent (S n)) (append (quoted k) (append ": " (append (text (S n) v) (elements ", " tl))))))
           end) EmptyString l)
        (append newline (append (indent n) "}")))
  | JArr [] => "[]"
  | JArr l =>
      append "[ " (append
        ((fix elements (separator : string) (l : list json) : string :=
           match l with
           | [] => EmptyString
           | v :: tl => append separator (append newline (append (indent (S n)) (append (text (S n) v) (elements ", " tl))))
           end) EmptyString l)
        (append newline (append (indent n) "]")))
  end%string.
(** A long long in an array is cast to long (json.h:361-370): std::bad_any_cast. *)
Fixpoint bad_cast (v : json) : bool :=
  match v with
  | JObj l => existsb (fun e => bad_cast (snd e)) l
  | JArr l => existsb (fun v => match v with JInt KLongLong _ => true | _ => false end || bad_cast v) l
  | _ => false
  end.
(** write_json_object, write_json_array (json.h:674-687): the text of the file. *)
Definition write_json (n : nat) (v : json) : outcome string := if bad_cast v then Throw else Ok (text n v).

(** ** Reading *)
(** The lines read by getline, appended (json.h:702-704): the text without its ends of
    line. *)
Fixpoint join_lines (s : string) : string :=
  match s with EmptyString => EmptyString | String c tl => if Ascii.eqb c LF then join_lines tl else String c (join_lines tl) end.
(** close_count (json.h:285-308). *)
Fixpoint close_count (l r : ascii) (s : string) (q : bool) (count : Z) : Z :=
  match s with
  | EmptyString => count
  | String c tl =>
      if Ascii.eqb c QUOTE then close_count l r tl (negb q) count
      else if q then close_count l r tl q count
      else if Ascii.eqb c l then close_count l r tl q (count + 1)
      else if Ascii.eqb c r then close_count l r tl q (count - 1)
      else close_count l r tl q count
  end.
(** The first replacement of tokenize (json.h:432): \r\n is removed. *)
Fixpoint strip_crlf (s : string) : string :=
  match s with
  | EmptyString => EmptyString
  | String c tl =>
      match tl with
      | String d tl' => if Ascii.eqb c CR && Ascii.eqb d LF then strip_crlf tl' else String c (strip_crlf tl)
      | EmptyString => s
      end
  end.
(** The others (json.h:433-438), one after the other in the code: none produces a
    character replaced by a later one, so one pass does the same. *)
Definition expand_char (c : ascii) : string :=
  if Ascii.eqb c ","%char then " "
  else if Ascii.eqb c ":"%char then " "
  else if Ascii.eqb c "{"%char then "{ "
  else if Ascii.eqb c "}"%char then " }"
  else if Ascii.eqb c "["%char then "[ "
  else if Ascii.eqb c "]"%char then " ]"
  else String c EmptyString.
Fixpoint expand (s : string) : string :=
  match s with EmptyString => EmptyString | String c tl => append (expand_char c) (expand tl) end.
(** The loop of tokenize (json.h:448-478).  [cur]: the token that is open; [q]: inside a
    quotation. *)
Fixpoint split_tokens (s : string) (cur : option string) (q : bool) : list string :=
  match s with
  | EmptyString => match cur with Some w => [w] | None => [] end
  | String c tl =>
      let q := if Ascii.eqb c QUOTE then negb q else q in
      if Ascii.eqb c " "%char || Ascii.eqb c TAB then
        match cur with
        | Some w => if q then split_tokens tl (Some (append w (String c EmptyString))) q else w :: split_tokens tl None q
        | None => split_tokens tl None q
        end
      else split_tokens tl (Some (append (match cur with Some w => w | None => EmptyString end) (String c EmptyString))) q
  end.
Definition tokenize (s : string) : list string := split_tokens (expand (strip_crlf s)) None false.

(** find_end_position (json.h:483-501) on the tokens from position [i] on. *)
Fixpoint find_from (l r : string) (ts : list string) (i : nat) (count : Z) : nat :=
  match ts with
  | [] => 0%nat
  | t :: tl =>
      if String.eqb t l then find_from l r tl (S i) (count + 1)
      else if String.eqb t r then if count - 1 =? 0 then i else find_from l r tl (S i) (count - 1)
      else find_from l r tl (S i) count
  end.
Definition find_end (ts : list string) (start : nat) (l r : string) : nat := find_from l r (skipn start ts) start 0.

(** TOKEN.substr(1, TOKEN.size() - 2). *)
Fixpoint drop_last (s : string) : string :=
  match s with EmptyString => EmptyString | String c EmptyString => EmptyString | String c tl => String c (drop_last tl) end.
Definition inner_text (t : string) : string := match t with EmptyString => EmptyString | String _ tl => drop_last tl end.
(** is_integer (json.h:141-156). *)
Fixpoint all_digits (s : string) : bool :=
  match s with EmptyString => true | String c tl => match digit_of c with Some _ => all_digits tl | None => false end end.
Definition is_integer (t : string) : bool :=
  match t with
  | EmptyString => true
  | String c tl => (match digit_of c with Some _ => true | None => false end || Ascii.eqb c "+"%char || Ascii.eqb c "-"%char) && all_digits tl
  end.
(** std::stoi of a token that is_integer accepts: invalid_argument without a digit,
    out_of_range outside int. *)
Definition stoi (t : string) : outcome Z :=
  let (neg, b) := split_sign t in
  let '(m, k, _) := span_digits b 0 0 in
  if k =? 0 then Throw
  else let z := if neg then - m else m in
       if (INT_MIN <=? z) && (z <=? INT_MAX) then Ok z else Throw.
Fixpoint skip_space (s : string) : string :=
  match s with EmptyString => EmptyString | String c tl => if is_space c then skip_space tl else s end.
Definition lower (c : ascii) : ascii :=
  let n := nat_of_ascii c in if Nat.leb 65 n && Nat.leb n 90 then ascii_of_nat (n + 32) else c.
Fixpoint starts_with (p s : string) : bool :=
  match p, s with
  | EmptyString, _ => true
  | String a p', String b s' => Ascii.eqb a (lower b) && starts_with p' s'
  | _, EmptyString => false
  end.
(** The smallest normal double, and 2^1024. *)
Definition TINY : Q := 1 # 2 ^ 1022.
Definition HUGE : Q := inject_Z (2 ^ 1024).
(** std::stod: leading space is skipped, invalid_argument without a digit, out_of_range
    for numbers too large for a double and for numbers between 0 and the smallest normal
    double (for which strtod reports ERANGE; a subnormal double printed without any
    rounding would be accepted, which is not modelled). *)
Definition stod (t : string) : outcome json :=
  let u := skip_space t in
  let (_, b) := split_sign u in
  if starts_with "inf" b || starts_with "nan" b || starts_with "0x" b then Ok (JSpecial t)
  else
    let '(ip, ki, r) := span_digits b 0 0 in
    let '(_, kf, _) := after_point r ip in
    if ki + kf =? 0 then Throw
    else match atof u with
         | Some q =>
             if Qeq_bool q 0 then Ok (JReal q)
             else if Qle_bool HUGE (Qabs q) || negb (Qle_bool TINY (Qabs q)) then Throw
             else Ok (JReal q)
         | None => Throw
         end.
(** A token that is no bracket, as a value: in an object (json.h:551-584), and in an
    array (625-653), where true and false are stored as strings. *)
Definition scalar (in_array : bool) (t : string) : outcome json :=
  match t with
  | String c _ =>
      if Ascii.eqb c QUOTE then Ok (JStr (inner_text t))
      else if String.eqb t "null" then Ok JNull
      else if String.eqb t "true" then Ok (if in_array then JStr "true" else JBool true)
      else if String.eqb t "false" then Ok (if in_array then JStr "false" else JBool false)
      else if is_integer t then bind (stoi t) (fun z => Ok (JInt KInt z))
      else stod t
  | EmptyString => UB
  end.
(** END_POSITION (json.h:515-516, 599-600). *)
Definition end_of (ts : list string) (e : nat) : nat := if Nat.ltb 0 e then e else (List.length ts - 1)%nat.
(** The loops of parse_json_object (json.h:509-591) and parse_json_array (594-659) at
    [position].  [key]: the key read, if the next token is a value.  [None]: still
    running when the fuel is used up. *)
Fixpoint object_loop (fuel : nat) (ts : list string) (position e : nat) (key : option string) (acc : list (string * json)) : option (outcome (list (string * json))) :=
  match fuel with
  | O => None
  | S f =>
      if Nat.ltb position e then
        match nth_error ts position with
        | None => Some UB
        | Some t =>
            match key with
            | None => object_loop f ts (S position) e (Some (inner_text t)) acc
            | Some k =>
                if String.eqb t "{" then
                  let sub := find_end ts position "{" "}" in
                  match object_loop f ts (S position) (end_of ts sub) None [] with
                  | Some (Ok l) => object_loop f ts (S sub) e None (acc ++ [(k, JObj l)])
                  | Some Throw => Some Throw | Some UB => Some UB | None => None
                  end
                else if String.eqb t "[" then
                  let sub := find_end ts position "[" "]" in
                  match array_loop f ts (S position) (end_of ts sub) [] with
                  | Some (Ok l) => object_loop f ts (S sub) e None (acc ++ [(k, JArr l)])
                  | Some Throw => Some Throw | Some UB => Some UB | None => None
                  end
                else
                  match scalar false t with
                  | Ok v => object_loop f ts (S position) e None (acc ++ [(k, v)])
                  | Throw => Some Throw | UB => Some UB
                  end
            end
        end
      else Some (Ok acc)
  end
with array_loop (fuel : nat) (ts : list string) (position e : nat) (acc : list json) : option (outcome (list json)) :=
  match fuel with
  | O => None
  | S f =>
      if Nat.ltb position e then
        match nth_error ts position with
        | None => Some UB
        | Some t =>
            if String.eqb t "{" then
              let sub := find_end ts position "{" "}" in
              match object_loop f ts (S position) (end_of ts sub) None [] with
              | Some (Ok l) => array_loop f ts (S sub) e (acc ++ [JObj l])
              | Some Throw => Some Throw | Some UB => Some UB | None => None
              end
            else if String.eqb t "[" then
              let sub := find_end ts position "[" "]" in
              match array_loop f ts (S position) (end_of ts sub) [] with
              | Some (Ok l) => array_loop f ts (S sub) e (acc ++ [JArr l])
              | Some Throw => Some Throw | Some UB => Some UB | None => None
              end
            else
              match scalar true t with
              | Ok v => array_loop f ts (S position) e (acc ++ [v])
              | Throw => Some Throw | UB => Some UB
              end
        end
      else Some (Ok acc)
  end.

(** read_json_object (json.h:690-726) and read_json_array (729-765) of a file with this
    text.  front() and back() of an empty vector are undefined. *)
Definition well_closed (s : string) : bool := (close_count "{" "}" s false 0 =? 0) && (close_count "[" "]" s false 0 =? 0).
Definition framed (l r : string) (ts : list string) : outcome bool :=
  match ts with [] => UB | t :: _ => Ok (String.eqb t l && String.eqb (List.last ts EmptyString) r) end.
Definition read_json_object (fuel : nat) (file : string) : option (outcome (list (string * json))) :=
  let s := join_lines file in
  if negb (well_closed s) then Some Throw
  else
    let ts := tokenize s in
    match framed "{" "}" ts with
    | Ok true => object_loop fuel ts 1 (end_of ts 0) None []
    | Ok false => Some Throw
    | Throw => Some Throw | UB => Some UB
    end.
Definition read_json_array (fuel : nat) (file : string) : option (outcome (list json)) :=
  let s := join_lines file in
  if negb (well_closed s) then Some Throw
  else
    let ts := tokenize s in
    match framed "[" "]" ts with
    | Ok true => array_loop fuel ts 1 (end_of ts 0) []
    | Ok false => Some Throw
    | Throw => Some Throw | UB => Some UB
    end.
(** parse_json_object of a string (json.h:662-665). *)
Definition parse_json_object (fuel : nat) (s : string) : option (outcome (list (string * json))) :=
  let ts := tokenize s in object_loop fuel ts 1 (end_of ts 0) None [].
