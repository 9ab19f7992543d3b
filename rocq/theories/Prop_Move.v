(** C34, C35, C38, C50: neighbourhood moves. *)
From Coq Require Import List ZArith NArith QArith Qabs Bool Lia Lqa Permutation.
From Verif Require Import ExprModel ExprSpec ConstraintModel ConstraintSpec VariableModel TypeModel TypeSpec PresolveModel MoveModel MoveSpec MoveProof9
  MoveProof MoveProof2 MoveProof3.
Import ListNotations.

(** ** C34 *)
Theorem C34_offered_moves_respect addr vs ac g m : data_ok vs g -> offered addr vs ac g m -> respects vs m.
Proof. exact (offered_respects addr vs ac g m). Qed.
Print Assumptions C34_offered_moves_respect.

(** Generators never store a variable that was fixed when they were set up. *)
Theorem C34_setup_skips_fixed vs l v : In v (mutable_vars vs l) -> In v l /\ va_fixed (vs v) = false.
Proof. exact (setup_mutable vs l v). Qed.
Print Assumptions C34_setup_skips_fixed.

Theorem C34_integer_moves_change vs ac v m f : va_fixed (vs v) = false ->
  (va_lower (vs v) <= va_value (vs v) <= va_upper (vs v))%Z -> In (m, f) (integer_moves vs ac v) -> f <> 0%Z ->
  respects vs m /\ exists a, m = [(v, a)] /\ a <> va_value (vs v).
Proof. exact (integer_moves_ok vs ac v m f). Qed.
Print Assumptions C34_integer_moves_change.

(** Without screening every unit step within the bounds is offered. *)
Theorem C34_unit_steps_offered addr vs ac l v a : ac_all ac = true -> In v l ->
  (va_lower (vs v) <= a <= va_upper (vs v))%Z -> (a = va_value (vs v) + 1 \/ a = va_value (vs v) - 1)%Z ->
  offered addr vs ac (GInteger l) [(v, a)].
Proof. exact (integer_steps addr vs ac l v a). Qed.
Print Assumptions C34_unit_steps_offered.
Theorem C34_flips_offered addr vs ac l v : ac_all ac = true -> In v l -> offered addr vs ac (GBinary l) [(v, (1 - va_value (vs v))%Z)].
Proof. exact (binary_step addr vs ac l v). Qed.
Print Assumptions C34_flips_offered.

(** A move stored by a generator (of a constraint class, chain, two-flip or user
    defined) is offered exactly when nothing rules it out and the screening asks for
    it; in particular a move marked unavailable is never offered again. *)
Theorem C34_stored_moves addr vs ac g l i m f : (forall k, g <> GBinary k) -> (forall k, g <> GInteger k) ->
  gen_update addr vs ac g = Some l -> nth_error l i = Some (m, f) -> (f <> 0%Z <-> ~ left_out vs g i m /\ wanted ac m).
Proof. exact (stored_offer addr vs ac g l i m f). Qed.
Print Assumptions C34_stored_moves.

(** The two-flip moves of a pair: the first variable to 1 and the second to 0, and the
    other way round. *)
Theorem C34_two_flips addr vs ac pairs available l i p : gen_update addr vs ac (GTwoFlip pairs available) = Some l -> nth_error pairs i = Some p ->
  length l = (2 * length pairs)%nat /\ option_map fst (nth_error l (2 * i)) = Some [(fst p, 1%Z); (snd p, 0%Z)] /\
  option_map fst (nth_error l (2 * i + 1)) = Some [(fst p, 0%Z); (snd p, 1%Z)].
Proof. exact (two_flip_list addr vs ac pairs available l i p). Qed.
Print Assumptions C34_two_flips.

Definition everything : accept := mkAccept true true true (fun _ => false) (fun _ => false).
Definition intv (a lo hi : Z) : var := mkVar a lo hi true false VInteger (lo <? a)%Z (a <? hi)%Z.
Definition binv (a lo hi : Z) : var := mkVar a lo hi true false VBinary (lo <? a)%Z (a <? hi)%Z.
Definition ident (v : nat) : N := N.of_nat v.

Example C34_example : data_ok (fun _ => intv 3 0 100) (GInteger [0%nat]) /\
  offered ident (fun _ => intv 3 0 100) everything (GInteger [0%nat]) [(0%nat, 51%Z)].
Proof.
  split.
  - intros v _. split; [reflexivity|]. cbn. lia.
  - eexists. exists 1%Z. split; [reflexivity|]. split; [right; right; left; reflexivity|discriminate].
Qed.

(** A chain move of two flips: offered; not when it was used before. *)
Example C34_stored_example : let m := [(0%nat, 1%Z); (1%nat, 0%Z)] in let vs := fun v => if Nat.eqb v 0 then binv 0 0 1 else binv 1 0 1 in
  gen_update ident vs everything (GChain [m] (fun _ => true)) = Some [(m, 1%Z)] /\ ~ left_out vs (GChain [m] (fun _ => true)) 0 m /\ wanted everything m /\
  gen_update ident vs everything (GChain [m] (fun _ => false)) = Some [(m, 0%Z)] /\ left_out vs (GChain [m] (fun _ => false)) 0 m.
Proof.
  cbv zeta. split; [reflexivity|]. split; [|split; [left; reflexivity|split; [reflexivity|right; left; reflexivity]]].
  intros [(v & a & [E|[E|[]]] & F)|[F|(v & a & [E|[E|[]]] & F)]]; try (injection E as <- <-); discriminate F.
Qed.

(** Without the conditions on the data: a free variable of binary sense with bounds
    [0,0] is set to 1 by the flip, soft-selection and two-flip neighbourhoods. *)
Definition soft_c : constr := c_setup (mkExpr [(0%nat, 1%Q); (1%nat, (-1)%Q)] 0) Equal (fun _ => true).
Theorem C34_zero_bounds_refuted :
  let vs := fun _ : nat => binv 0 0 0 in
  (binary_or_integer 0 0 = VBinary) /\
  (offered ident vs everything (setup_binary vs [0%nat]) [(0%nat, 1%Z)] /\ ~ respects vs [(0%nat, 1%Z)]) /\
  (offered ident vs everything (setup_special vs SoftSelection [(soft_c, Some 0%nat)]) [(1%nat, 1%Z); (0%nat, 1%Z)] /\
     ~ respects vs [(1%nat, 1%Z); (0%nat, 1%Z)]) /\
  (let vs2 := fun v : nat => if Nat.eqb v 0 then binv 0 0 0 else binv 1 0 1 in
   offered ident vs2 everything (GTwoFlip [(0%nat, 1%nat)] (fun _ => true)) [(0%nat, 1%Z); (1%nat, 0%Z)] /\
     ~ respects vs2 [(0%nat, 1%Z); (1%nat, 0%Z)]).
Proof.
  cbv zeta. split; [reflexivity|]. split; [|split].
  - split; [eexists; exists 1%Z; split; [reflexivity|split; [left; reflexivity|discriminate]]|].
    intros R. destruct (R 0%nat 1%Z) as [_ B]; [now left|]. cbn in B. lia.
  - split; [eexists; exists 1%Z; split; [reflexivity|split; [right; left; reflexivity|discriminate]]|].
    intros R. destruct (R 1%nat 1%Z) as [_ B]; [now left|]. cbn in B. lia.
  - split; [eexists; exists 1%Z; split; [reflexivity|split; [left; reflexivity|discriminate]]|].
    intros R. destruct (R 0%nat 1%Z) as [_ B]; [now left|]. cbn in B. lia.
Qed.
Print Assumptions C34_zero_bounds_refuted.

(** ** C35 *)
Theorem C35_exclusive_inverted_balanced addr x c t key val l m : wf (ct_expr c) -> classify x c = (t, key) ->
  In t [ExclusiveOR; ExclusiveNOR; InvertedIntegers; BalancedIntegers] ->
  special_moves addr t key c val = Some l -> In m l -> satisfies c (after val m).
Proof. exact (four_types addr x c t key val l m). Qed.
Print Assumptions C35_exclusive_inverted_balanced.

(** Constant sum: kept with coefficients 1, always broken with coefficients -1. *)
Theorem C35_constant_sum addr x c key val l m : wf (ct_expr c) -> classify x c = (ConstantSumIntegers, key) ->
  integral (ex_const (ct_expr c)) -> special_moves addr ConstantSumIntegers key c val = Some l -> In m l ->
  ((forall v a, In (v, a) (ex_sens (ct_expr c)) -> a == 1) -> satisfies c (after val m)) /\
  ((forall v a, In (v, a) (ex_sens (ct_expr c)) -> a == -(1)) -> ~ satisfies c (after val m)).
Proof. exact (sum_moves addr x c key val l m). Qed.
Print Assumptions C35_constant_sum.

(** Constant difference: kept when the variable with the lower address has
    coefficient 1, always broken when it has coefficient -1. *)
Theorem C35_constant_difference addr x c key val l m : wf (ct_expr c) -> classify x c = (ConstantDifferenceIntegers, key) ->
  integral (ex_const (ct_expr c)) -> special_moves addr ConstantDifferenceIntegers key c val = Some l -> In m l ->
  (first_coef addr c 1 -> satisfies c (after val m)) /\ (first_coef addr c (-(1)) -> ~ satisfies c (after val m)).
Proof. exact (diff_moves addr x c key val l m). Qed.
Print Assumptions C35_constant_difference.

Theorem C35_constant_ratio addr x c key val l m w a : wf (ct_expr c) -> classify x c = (ConstantRatioIntegers, key) ->
  (forall v b, In (v, b) (ex_sens (ct_expr c)) -> integral b) -> key = Some w -> In (w, a) (ex_sens (ct_expr c)) ->
  special_moves addr ConstantRatioIntegers key c val = Some l -> In m l -> satisfies c (after val m).
Proof. exact (ratio_moves addr x c key val l m w a). Qed.
Print Assumptions C35_constant_ratio.

(** Aggregation: for every step of either variable there is a move taking it, and
    that move satisfies the constraint whenever some integer assignment with that
    step does. *)
Theorem C35_aggregation addr x c key val l w s : wf (ct_expr c) -> classify x c = (Aggregation, key) ->
  special_moves addr Aggregation key c val = Some l -> In w (variables c) -> s = 1%Z \/ s = (-1)%Z ->
  exists m, In m l /\ In (w, val w + s)%Z m /\ forall y, y w = (val w + s)%Z -> satisfies c y -> satisfies c (after val m).
Proof. exact (aggregation_moves addr x c key val l w s). Qed.
Print Assumptions C35_aggregation.

Theorem C35_precedence addr x c key val l m : wf (ct_expr c) -> classify x c = (Precedence, key) ->
  special_moves addr Precedence key c val = Some l -> In m l -> value_kept c val m.
Proof. exact (precedence_moves addr x c key val l m). Qed.
Print Assumptions C35_precedence.

Theorem C35_variable_bound addr x c key val l : wf (ct_expr c) -> classify x c = (VariableBound, key) ->
  special_moves addr VariableBound key c val = Some l ->
  (forall m, In m l -> satisfies c (after val m)) /\
  (forall w s, In w (variables c) -> s = 1%Z \/ s = (-1)%Z -> exists m, In m l /\ In (w, val w + s)%Z m).
Proof.
  exact (fun W Hc E => conj (fun m => bound_moves addr x c key val l m W Hc E) (fun w s => step_offered addr x c key val l w s W Hc E)).
Qed.
Print Assumptions C35_variable_bound.

(** Soft selection: a usable move leaves the value of the constraint alone. *)
Theorem C35_soft_selection addr x c key vs ac b l m : wf (ct_expr c) -> classify x c = (SoftSelection, key) ->
  (forall v, In v (variables c) -> (0 <= va_value (vs v) <= 1)%Z) ->
  special_moves addr SoftSelection key c (fun v => va_value (vs v)) = Some l -> In m l ->
  move_flag (rule_of SoftSelection) vs ac b m <> 0%Z -> value_kept c (fun v => va_value (vs v)) m.
Proof. exact (soft_moves addr x c key vs ac b l m). Qed.
Print Assumptions C35_soft_selection.

(** Trinomial exclusive-nor: satisfied after the move exactly when the constant is 0. *)
Theorem C35_trinomial addr x c key val l m : wf (ct_expr c) -> classify x c = (TrinomialExclusiveNOR, key) ->
  special_moves addr TrinomialExclusiveNOR key c val = Some l -> In m l ->
  (satisfies c (after val m) <-> ex_const (ct_expr c) == 0).
Proof. exact (trinomial_moves addr x c key val l m). Qed.
Print Assumptions C35_trinomial.

(** The moves are defined: no exception and no division by zero. *)
Theorem C35_moves_defined addr x c t key val : wf (ct_expr c) -> classify x c = (t, key) -> special t ->
  (forall v a, In (v, a) (ex_sens (ct_expr c)) -> ~ a == 0) -> exists l, special_moves addr t key c val = Some l.
Proof. exact (moves_defined addr x c t key val). Qed.
Print Assumptions C35_moves_defined.

Definition ints : tctx := mkTctx (fun _ => mkVinfo (-100) 100 false 0) (fun _ => VInteger) (fun v => v).
Definition bins : tctx := mkTctx (fun _ => mkVinfo 0 1 false 0) (fun _ => VBinary) (fun v => v).
Definition pairc (a b k : Q) (s : csense) : constr := c_setup (mkExpr [(0%nat, a); (1%nat, b)] k) s (fun _ => false).

(** The hypotheses are met: one constraint of each kind. *)
Example C35_example :
  fst (classify bins (pairc 1 1 (-1) Equal)) = ExclusiveOR /\ fst (classify ints (pairc 1 1 (-3) Equal)) = ConstantSumIntegers /\
  fst (classify ints (pairc 1 (-1) (-3) Equal)) = ConstantDifferenceIntegers /\ fst (classify ints (pairc 1 (-3) 0 Equal)) = ConstantRatioIntegers /\
  fst (classify ints (pairc 2 3 (-12) Equal)) = Aggregation /\ fst (classify ints (pairc 2 (-2) 3 Less)) = Precedence /\
  fst (classify ints (pairc 2 3 (-12) Less)) = VariableBound /\
  special_moves ident VariableBound None (pairc 2 3 (-12) Less) (fun _ => 1%Z) =
    Some [[(0%nat, 2%Z); (1%nat, 2%Z)]; [(0%nat, 0%Z); (1%nat, 4%Z)]; [(0%nat, 3%Z); (1%nat, 2%Z)]; [(0%nat, 6%Z); (1%nat, 0%Z)]].
Proof. repeat split. Qed.

(** Satisfied constraints whose every (or some) move breaks them. *)
Theorem C35_sum_refuted :
  let c := pairc (-1) (-1) 3 Equal in let val v := if Nat.eqb v 0 then 1%Z else 2%Z in
  classify ints c = (ConstantSumIntegers, Some 0%nat) /\ satisfies c val /\
  exists l, special_moves ident ConstantSumIntegers (Some 0%nat) c val = Some l /\ l <> [] /\ forall m, In m l -> ~ satisfies c (after val m).
Proof.
  cbv zeta. split; [reflexivity|]. split; [reflexivity|]. eexists. split; [vm_compute; reflexivity|]. split; [discriminate|].
  intros m [<-|[<-|[]]] H; vm_compute in H; discriminate H.
Qed.
Print Assumptions C35_sum_refuted.
Theorem C35_difference_refuted :
  let c := pairc (-1) 1 3 Equal in let val v := if Nat.eqb v 0 then 5%Z else 2%Z in
  classify ints c = (ConstantDifferenceIntegers, Some 0%nat) /\ satisfies c val /\
  exists l, special_moves ident ConstantDifferenceIntegers (Some 0%nat) c val = Some l /\ l <> [] /\ forall m, In m l -> ~ satisfies c (after val m).
Proof.
  cbv zeta. split; [reflexivity|]. split; [reflexivity|]. eexists. split; [vm_compute; reflexivity|]. split; [discriminate|].
  intros m [<-|[<-|[]]] H; vm_compute in H; discriminate H.
Qed.
Print Assumptions C35_difference_refuted.
(** A fractional ratio is truncated; and when the key variable has the lower
    address the other variable is moved to the key's value plus or minus 1. *)
Theorem C35_ratio_refuted :
  let c := pairc 1 (-1 # 2) 0 Equal in let val v := if Nat.eqb v 0 then 2%Z else 4%Z in
  classify ints c = (ConstantRatioIntegers, Some 0%nat) /\ satisfies c val /\
  special_moves ident ConstantRatioIntegers (Some 0%nat) c val = Some [[(1%nat, 3%Z); (0%nat, 1%Z)]; [(1%nat, 1%Z); (0%nat, 0%Z)]] /\
  ~ satisfies c (after val [(1%nat, 3%Z); (0%nat, 1%Z)]) /\ ~ satisfies c (after val [(1%nat, 1%Z); (0%nat, 0%Z)]).
Proof.
  cbv zeta. split; [reflexivity|]. split; [reflexivity|]. split; [vm_compute; reflexivity|]. split; intros H; vm_compute in H; discriminate H.
Qed.
Print Assumptions C35_ratio_refuted.
Theorem C35_trinomial_refuted :
  let c := c_setup (mkExpr [(0%nat, 1); (1%nat, 1); (2%nat, -(2))]%Q (-1)) Equal (fun _ => false) in
  let val v := if Nat.eqb v 0 then 1%Z else 0%Z in
  classify bins c = (TrinomialExclusiveNOR, Some 2%nat) /\ satisfies c val /\
  exists l, special_moves ident TrinomialExclusiveNOR (Some 2%nat) c val = Some l /\ l <> [] /\ forall m, In m l -> ~ satisfies c (after val m).
Proof.
  cbv zeta. split; [reflexivity|]. split; [reflexivity|]. eexists. split; [vm_compute; reflexivity|]. split; [discriminate|].
  intros m [<-|[<-|[]]] H; vm_compute in H; discriminate H.
Qed.
Print Assumptions C35_trinomial_refuted.

(** A constraint-based neighbourhood takes its moves from enabled constraints without
    fixed or selection variables only. *)
Theorem C34_sources addr vs ac t items l m f : gen_update addr vs ac (setup_special vs t items) = Some l -> In (m, f) l ->
  exists c k ms, In (c, k) items /\ ct_enabled c = true /\
  (forall v a, In (v, a) (ex_sens (ct_expr c)) -> va_fixed (vs v) = false /\ va_sense (vs v) <> VSelection) /\
  special_moves addr t k c (fun v => va_value (vs v)) = Some ms /\ In m ms.
Proof. exact (special_sources addr vs ac t items l m f). Qed.
Print Assumptions C34_sources.
Example C34_sources_example : gen_update ident (fun _ => intv 1 0 100) (mkAccept true false false (fun _ => true) (fun _ => true)) (setup_special (fun _ => intv 1 0 100) VariableBound [(pairc 2 3 (-12) Less, None)]) <> None /\
  exists l, gen_update ident (fun _ => intv 1 0 100) (mkAccept true false false (fun _ => true) (fun _ => true)) (setup_special (fun _ => intv 1 0 100) VariableBound [(pairc 2 3 (-12) Less, None)]) = Some l /\ length l = 4%nat.
Proof. split; [vm_compute; discriminate|]. eexists. split; [vm_compute; reflexivity|reflexivity]. Qed.

(** ** C38 *)
Theorem C38_exposed_moves {M} (old : list (option M)) (gs : list (gview M)) : (forall g, In g gs -> sound_flags g) ->
  collect old gs = Some (map Some (flat_map flagged gs),
                         Z.of_nat (length (flat_map (fun g => if gv_enabled g then gv_moves g else []) gs))).
Proof. exact (collect_exact old gs). Qed.
Print Assumptions C38_exposed_moves.
(** Every generator's update leaves one flag per move, 0 or 1. *)
Theorem C38_generators_sound addr vs ac g l : gen_update addr vs ac g = Some l -> sound_flags (mkGview true (map fst l) (map snd l)).
Proof. exact (generator_sound addr vs ac g l). Qed.
Print Assumptions C38_generators_sound.
(** The chain generator keeps one flag per move through any sequence of operations. *)
Theorem C38_chain_flags ops s : length (ch_flags s) = length (ch_moves s) ->
  (forall f, In (ChReorder f) ops -> forall l, length (f l) = length l) ->
  length (ch_flags (fold_left chain_step ops s)) = length (ch_moves (fold_left chain_step ops s)).
Proof. exact (chain_lengths ops s). Qed.
Print Assumptions C38_chain_flags.
Example C38_example :
  collect [None; Some 7%nat; None; None; None] [mkGview true [1; 2; 3]%nat [1; 0; 1]%Z; mkGview false [4]%nat [1]%Z; mkGview true [5; 6]%nat [0; 1]%Z]
  = Some ([Some 1; Some 3; Some 6]%nat, 5%Z).
Proof. reflexivity. Qed.

(** ** C50 *)
Theorem C50_chain_moves addr linkable overlap x p q : flips x p -> flips (apply_move x p) q ->
  forall ms, chain_moves addr linkable overlap p q = ms ->
  ms = [] \/ exists m, ms = [m; complement m] /\ proper m /\ Permutation m (p ++ q) /\
    (forall v, apply_move x m v = apply_move (apply_move x p) q v) /\
    (forall v, apply_move (apply_move (apply_move x p) q) (complement m) v = x v).
Proof. exact (chain_registers addr linkable overlap x p q). Qed.
Print Assumptions C50_chain_moves.
Example C50_example : flips (fun v => if Nat.eqb v 0 then 1%Z else 0%Z) [(0%nat, 0%Z)] /\
  chain_moves ident true (fun _ => true) [(0%nat, 0%Z)] [(1%nat, 1%Z)] = [[(0%nat, 0%Z); (1%nat, 1%Z)]; [(0%nat, 1%Z); (1%nat, 0%Z)]].
Proof.
  split; [|reflexivity]. split; [repeat constructor; intros []|]. intros v a [E|[]]. injection E as <- <-. reflexivity.
Qed.
