From Coq Require Import List ZArith QArith Bool String Ascii Lia.
From Verif Require Import VariableModel PresolveModel TextModel MpsModel NamesModel NamesSpec JsonModel OptionModel CommandModel CommandSpec TextProof NamesProof.
Import ListNotations.
Local Open Scope string_scope.
Local Open Scope list_scope.

(** atoi of a printed int. *)
Lemma atoi_print z : is_int z -> atoi (print_int z) = Ok z.
Proof.
  intros R. unfold is_int in R.
  assert (T : to_int z = Ok z). { unfold to_int. unfold INT_MIN, INT_MAX. 
    destruct ((-2147483648 <=? z)%Z && (z <=? 2147483647)%Z) eqn:E; [reflexivity|]. lia. }
  assert (Sp : forall k m, (1 <= k)%nat -> skip_blanks (fixed_digits k m) = fixed_digits k m).
  { intros k m K. pose proof (fixed_digits_digits k m) as D. pose proof (fixed_nonempty k m K) as N.
    destruct (fixed_digits k m) as [|c tl] eqn:E; [congruence|]. cbn [digits all_chars] in D. apply andb_true_iff in D. destruct D as [D _].
    cbn [skip_blanks]. destruct (digit_facts c D) as [H _]. destruct (is_space c) eqn:F; [|reflexivity].
    exfalso. revert D F. unfold is_digit, is_space, digit_of. clear.
    destruct c as [[] [] [] [] [] [] [] []]; vm_compute; congruence. }
  assert (V : forall m, (0 <= m)%Z -> span_digits (fixed_digits (ndigits m) m) 0 0 = (m, Z.of_nat (ndigits m), EmptyString)).
  { intros m M. rewrite <- (app_nil' (fixed_digits (ndigits m) m)). rewrite span_app by apply fixed_digits_digits.
    cbn [span_digits]. rewrite print_value, fixed_length by exact M. f_equal; f_equal; lia. }
  unfold print_int. destruct (z <? 0)%Z eqn:E.
  - unfold atoi. change (append "-" (fixed_digits (ndigits (- z)) (- z))) with (String "-"%char (fixed_digits (ndigits (- z)) (- z))).
    change (skip_blanks (String "-" (fixed_digits (ndigits (- z)) (- z)))) with (String "-"%char (fixed_digits (ndigits (- z)) (- z))).
    cbn [split_sign]. rewrite Ascii.eqb_refl. rewrite V by lia. rewrite Z.opp_involutive. exact T.
  - unfold atoi. rewrite Sp by apply ndigits_pos. 
    rewrite <- (app_nil' (fixed_digits (ndigits z) z)). rewrite sign_digits; [|apply fixed_digits_digits|apply fixed_nonempty, ndigits_pos].
    rewrite app_nil', V by lia. exact T.
Qed.
