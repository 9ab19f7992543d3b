(** Model of solver/integer_step_size_adjuster.h. *)
From Coq Require Import ZArith QArith Qabs Bool.
Local Open Scope Z_scope.

(** Results of adjust: a target, signed overflow of an [int], or more loop
    iterations than the fuel allows. *)
Inductive outcome := Target (t : Z) | Overflow | Unfinished.

Definition INT32_MIN : Z := -2147483648.
Definition INT32_MAX : Z := 2147483647.
Definition int_ok (z : Z) : bool := (INT32_MIN <=? z) && (z <=? INT32_MAX).

Definition better (f : Z -> Q) (t : Z) (best : Q) : bool := if Qlt_le_dec (f t) best then true else false.

(** The second loop (integer_step_size_adjuster.h:107-130); [f t] is the global
    augmented objective of moving the variable to t, [up] is DIRECTION > 0. *)
Fixpoint bisect (n : nat) (f : Z -> Q) (up : bool) (lo hi cand : Z) (best : Q) : outcome :=
  match n with
  | O => Unfinished
  | S n' =>
      if int_ok (hi - lo) then
        if hi - lo >? 1 then
          if int_ok (lo + hi) then
            let t := Z.quot (lo + hi) 2 in
            if better f t best
            then if up then bisect n' f up t hi t (f t) else bisect n' f up lo t t (f t)
            else if up then bisect n' f up lo t cand best else bisect n' f up t hi cand best
          else Overflow
        else Target cand
      else Overflow
  end.

(** The first loop (70-105): double the step while the score improves and the
    target stays inside the bounds vlo, vhi; then the second loop. *)
Fixpoint expand (n m : nat) (f : Z -> Q) (up : bool) (vlo vhi orig step lo hi cand : Z) (best : Q) : outcome :=
  match n with
  | O => Unfinished
  | S n' =>
      let t := if up then orig + step else orig - step in
      if better f t best then
        let lo1 := if up then Z.max lo t else lo in
        let hi1 := if up then hi else Z.min hi t in
        let step2 := step * 2 in
        let t2 := if up then orig + step2 else orig - step2 in
        if int_ok step2 && int_ok t2 then
          if t2 <=? vlo then bisect m f up vlo hi1 t (f t)
          else if t2 >=? vhi then bisect m f up lo1 vhi t (f t)
          else expand n' m f up vlo vhi orig step2 lo1 hi1 t (f t)
        else Overflow
      else if up then bisect m f up lo t cand best else bisect m f up t hi cand best
  end.

(** adjust (43-132).  [orig] is the variable's value, [init] the move's target. *)
Definition adjust (fuel : nat) (f : Z -> Q) (vlo vhi orig init : Z) : outcome :=
  if int_ok (init - orig) then
    let up := init - orig >? 0 in
    if up && (init =? vhi) then Target init
    else if negb up && (init =? vlo) then Target init
    else if int_ok (if up then orig + 2 else orig - 2)
         then expand fuel fuel f up vlo vhi orig 2 orig orig init (f init)
         else Overflow
  else Overflow.
