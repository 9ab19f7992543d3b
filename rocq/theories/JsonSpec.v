(** C65: what a JSON value must look like to survive being written to a file, and what
    it is read back as. *)
From Coq Require Import List ZArith QArith Qabs Bool String Ascii.
From Verif Require Import JsonModel.
Import ListNotations.
Local Open Scope Z_scope.

(** The characters that a key or a string may not contain: the quotation mark, the end
    of line, and the punctuation of JSON. *)
Definition unsafe : list ascii := [ascii_of_nat 34; ascii_of_nat 10; ","%char; ":"%char; "{"%char; "}"%char; "["%char; "]"%char].
Definition plain (s : string) : Prop := forall n c, String.get n s = Some c -> ~ In c unsafe.

(** A value that survives: plain keys and strings, integers within int and not of type
    long long in an array, doubles that are 0 or between 1e-300 and 1e300 in absolute
    value or not finite. *)
Definition decimal (e : Z) : Q := Qpower 10 e.
Fixpoint storable (in_array : bool) (v : json) : Prop :=
  match v with
  | JNull => True
  | JInt k z => -2147483648 <= z <= 2147483647 /\ (in_array = true -> k <> KLongLong)
  | JReal q => (q == 0 \/ decimal (-300) <= Qabs q <= decimal 300)%Q
  | JSpecial t => In t ["inf"; "-inf"; "nan"; "-nan"]%string
  | JBool _ => True
  | JStr s => plain s
  | JObj l => (fix all (l : list (string * json)) : Prop := match l with [] => True | (k, v) :: tl => plain k /\ storable false v /\ all tl end) l
  | JArr l => (fix all (l : list json) : Prop := match l with [] => True | v :: tl => storable true v /\ all tl end) l
  end.

(** What is read back: the same structure, with every integer of type int, doubles
    rounded to seven significant digits, and booleans inside an array as strings. *)
Definition rounded (q r : Q) : Prop :=
  (Qabs (r - q) <= Qabs q * (1 # 2000000))%Q /\ (forall k e, (q == inject_Z k * decimal e)%Q -> Z.abs k < 10000000 -> (r == q)%Q).
Fixpoint read_back (in_array : bool) (v w : json) {struct v} : Prop :=
  match v with
  | JNull => w = JNull
  | JInt _ z => w = JInt KInt z
  | JReal q => exists r, w = JReal r /\ rounded q r
  | JSpecial t => w = JSpecial t
  | JBool b => w = if in_array then JStr (if b then "true" else "false") else JBool b
  | JStr s => w = JStr s
  | JObj l => exists m, w = JObj m /\
      (fix all (l m : list (string * json)) : Prop :=
         match l, m with [], [] => True | (k, v) :: l', (k', w) :: m' => k' = k /\ read_back false v w /\ all l' m' | _, _ => False end) l m
  | JArr l => exists m, w = JArr m /\
      (fix all (l m : list json) : Prop :=
         match l, m with [], [] => True | v :: l', w :: m' => read_back true v w /\ all l' m' | _, _ => False end) l m
  end.

(** Tokens whose brackets close: from every opening bracket on there is a stretch with
    as many closing brackets of its kind as opening ones. *)
Definition occurrences (t : string) (ts : list string) : nat := count_occ string_dec ts t.
Definition closes (l r : string) (ts : list string) : Prop :=
  forall p, nth_error ts p = Some l ->
  exists n, (0 < n)%nat /\ (p + n <= List.length ts)%nat /\ occurrences l (firstn n (skipn p ts)) = occurrences r (firstn n (skipn p ts)).
(** A file with nothing but blanks, tabs, ends of line, commas and colons. *)
Definition nothing (file : string) : Prop := forall n c, String.get n file = Some c -> In c [ascii_of_nat 10; ascii_of_nat 9; " "%char; ","%char; ":"%char].
