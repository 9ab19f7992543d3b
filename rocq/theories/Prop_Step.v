(** C37: adjusting the step of an integer move. *)
From Coq Require Import ZArith QArith.
From Verif Require Import StepModel StepProof.
Local Open Scope Z_scope.

(** For every score function: both loops end within 31 rounds without overflow;
    the new target is within the bounds, on the same side of the present value,
    and is the old target or strictly better. *)
Theorem C37_step_adjustment : forall (f : Z -> Q) (lower upper value target : Z),
  lower <= value <= upper -> lower <= target <= upper -> target <> value ->
  - 1073741824 < lower -> upper < 1073741824 -> upper - lower < 1073741824 ->
  exists t, adjust 31 f lower upper value target = Target t /\
    lower <= t <= upper /\ t <> value /\ (value < target <-> value < t) /\ (t = target \/ (f t < f target)%Q).
Proof. exact adjust_good. Qed.
Print Assumptions C37_step_adjustment.

(** f t = (t - 37)^2 from 3 to 4 within 0..1000 ends at 37. *)
Example C37_example : adjust 31 (fun t => inject_Z ((t - 37) * (t - 37))) 0 1000 3 4 = Target 37.
Proof. vm_compute. reflexivity. Qed.

(** With the default bounds of an unbounded integer variable the doubled step
    overflows when the score keeps improving. *)
Theorem C37_wide_range_refuted :
  adjust 31 (fun t => inject_Z (- t)) (-1073741823) 1073741823 (-1073741823) (-1073741822) = Overflow.
Proof. vm_compute. reflexivity. Qed.
Print Assumptions C37_wide_range_refuted.
