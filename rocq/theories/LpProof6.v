(** Proofs for C62 and C63: the statements. *)
From Coq Require Import List ZArith QArith Qabs Bool Lia Lqa.
From Verif Require Import ExprModel ExprSpec ConstraintModel VariableModel TypeSpec PresolveModel PresolveSpec SparseModel SparseSpec SparseProof2 LpModel LpSpec LpProof LpProof2 LpProof3 LpProof4 LpProof5.
Import ListNotations.
Local Open Scope Q_scope.

Section T.
  Variable nrm : list Q -> Q.
  Variables red ext : nat -> Q.
  Hypothesis P : powers red ext.
  Hypothesis Nn : norm_like nrm.
  Variable sq : Q -> Q.
  Hypothesis Hs : forall q, 0 < q -> 0 < sq q.

  (** The run of the controller, taken apart. *)
  Lemma controller_run o envs late (minimize : bool) obj vs order fixed less sels equals greater k s b : lists_ok obj vs order fixed less sels equals greater -> (forall e, In e envs -> 0 < pe_weight e) ->
    (forall v, In v order -> va_fixed (vs v) = false -> (va_lower (vs v) <= va_upper (vs v))%Z) ->
    pdlp_run nrm red ext sq o envs late minimize obj vs order fixed less sels equals greater = Ok (Ran k s b) ->
    exists l, lp_wf l /\ inv nrm l k /\ (k_total k <= po_iteration_max o)%nat /\ (exists lt, stops o l lt k = Some s) /\
      b = (if Qlt_le_dec (k_dviol k) (po_tolerance o) then Some (if minimize then k_dobj k else - k_dobj k) else None) /\
      (moderate_range vs order -> all_bounded l) /\
      lp_offset l == (if minimize then 1 else -(1)) * total (map (fun v => inject_Z (va_value (vs v)) * coef (ex_sens obj) v) fixed) /\
      forall y, admitted vs less sels equals greater y -> exists x, lp_feasible l x /\ lp_objective l x == (if minimize then 1 else -(1)) * (e_eval obj y - ex_const obj).
  Proof.
    intros Lo Hw Hb E. unfold pdlp_run in E. destruct (_ || late); [discriminate|].
    destruct (export minimize obj vs order fixed less sels equals greater) as [l0| |] eqn:E0; try discriminate. cbn [bind] in E. destruct (Nat.leb (lp_cols l0) 1 || Nat.leb (lp_rows l0) 1); [discriminate|].
    destruct (lp_scaling sq (po_ruiz o) (po_pock o) l0) as [l| |] eqn:E1; try discriminate. cbn [bind] in E.
    destruct (core_run nrm red ext o l envs) as [[[k' s']|]| |] eqn:E2; try discriminate. cbn [bind] in E.
    assert (k' = k /\ s' = s /\ b = (if Qlt_le_dec (k_dviol k) (po_tolerance o) then Some (if minimize then k_dobj k else - k_dobj k) else None)) as (-> & -> & Eb) by (inversion E; auto). clear E.
    destruct (export_spec _ _ _ _ _ _ _ _ _ l0 Lo Hb E0) as (W0 & S1 & S2 & Md & Ec & Of & Sol).
    destruct (scaling_spec sq (po_ruiz o) (po_pock o) l0 l Hs W0 S1 S2 E1) as (W & R1 & R2 & R3 & R4 & R5 & R6 & R7 & R8).
    destruct (run_inv nrm red ext P o l envs k s W Hw E2) as (Iv & T & St).
    exists l. split; [exact W|]. split; [exact Iv|]. split; [exact T|]. split; [exact St|]. split; [exact Eb|]. split; [|split].
    - intros M j Hj. rewrite R4, R5. apply (Md M). congruence.
    - rewrite R3. exact Of.
    - intros y Hy. destruct (Sol y Hy) as (F & O). destruct (R8 _ F) as (F' & O'). exists (scale (mt_col_scaler (lp_A l)) (point (columns vs order) y)). split; [exact F'|]. now rewrite O'.
  Qed.
  Theorem dual_bound_stmt o envs late (minimize : bool) obj vs order fixed less sels equals greater k s b : lists_ok obj vs order fixed less sels equals greater -> (forall e, In e envs -> 0 < pe_weight e) ->
    moderate_range vs order ->
    pdlp_run nrm red ext sq o envs late minimize obj vs order fixed less sels equals greater = Ok (Ran k s (Some b)) ->
    forall y, admitted vs less sels equals greater y -> if minimize then b <= e_eval obj y - ex_const obj else e_eval obj y - ex_const obj <= b.
  Proof.
    intros Lo Hw Hm E y Hy. destruct (controller_run o envs late minimize obj vs order fixed less sels equals greater k s (Some b) Lo Hw) as (l & W & Iv & _ & _ & Eb & Bd & _ & Sol); [|exact E|].
    { intros v _ Hv. destruct (proj2 (proj1 Hy v) Hv). lia. }
    destruct (Sol y Hy) as (x & F & O). pose proof (dual_valid0 nrm Nn l k x W Iv (Bd Hm) F) as H. rewrite O in H. destruct (Qlt_le_dec (k_dviol k) (po_tolerance o)); [|discriminate]. inversion Eb. destruct minimize; lra.
  Qed.
  Theorem infeasible_stmt o envs late (minimize : bool) obj vs order fixed less sels equals greater k b : lists_ok obj vs order fixed less sels equals greater -> (forall e, In e envs -> 0 < pe_weight e) ->
    moderate_range vs order ->
    (if minimize then total (map (fun v => inject_Z (va_value (vs v)) * coef (ex_sens obj) v) fixed) <= 0 else 0 <= total (map (fun v => inject_Z (va_value (vs v)) * coef (ex_sens obj) v) fixed)) ->
    pdlp_run nrm red ext sq o envs late minimize obj vs order fixed less sels equals greater = Ok (Ran k INFEASIBLE b) ->
    ~ exists y, admitted vs less sels equals greater y.
  Proof.
    intros Lo Hw Hm Ho E (y & Hy). destruct (controller_run o envs late minimize obj vs order fixed less sels equals greater k INFEASIBLE b Lo Hw) as (l & W & Iv & _ & (lt & St) & Eb & Bd & Of & Sol); [|exact E|].
    { intros v _ Hv. destruct (proj2 (proj1 Hy v) Hv). lia. }
    destruct (Sol y Hy) as (x & F & O). destruct (stops_infeasible o l lt k St) as (_ & U). apply (infeasible_none nrm Nn l k x W Iv (Bd Hm)); auto. rewrite Of. destruct minimize; lra.
  Qed.
  Theorem core_stmt o l envs k s : lp_wf l -> (forall e, In e envs -> 0 < pe_weight e) -> core_run nrm red ext o l envs = Ok (Some (k, s)) ->
    (k_total k <= po_iteration_max o)%nat /\ within l (k_x k) /\ signs l (k_y k) /\ signs l (k_ya k) /\
    (forall x, lp_feasible l x -> k_dobj k <= lp_objective l x + k_dviol k * (1 + nrm (lp_c l)) * sum_below (lp_cols l) (fun j => if nth j (lp_lo_open l) false || nth j (lp_hi_open l) false then Qabs (nth j x 0) else 0)).
  Proof.
    intros W Hw E. destruct (run_inv nrm red ext P o l envs k s W Hw E) as (Iv & T & St). split; [exact T|]. destruct (iv_shape nrm l k Iv) as [A B C]. split; [exact A|]. split; [exact B|]. split; [apply (iv_ya nrm l k Iv)|].
    intros x F. now apply (dual_valid nrm Nn).
  Qed.
  Theorem optimal_stmt o l envs k : lp_wf l -> (forall e, In e envs -> 0 < pe_weight e) -> core_run nrm red ext o l envs = Ok (Some (k, OPTIMAL)) ->
    exists x, within l x /\ lp_objective l x == k_pobj k /\
      (forall i, (i < lp_rows l)%nat -> nth i (lp_b l) 0 - lhs l x i <= po_tolerance o * (1 + nrm (lp_b l)) /\
        (nth i (lp_dlo l) None = None -> lhs l x i - nth i (lp_b l) 0 <= po_tolerance o * (1 + nrm (lp_b l)))) /\
      (all_bounded l -> forall x', lp_feasible l x' -> k_pobj k <= lp_objective l x' + po_tolerance o * (1 + Qabs (k_dobj k) + Qabs (k_pobj k))).
  Proof.
    intros W Hw E. destruct (run_inv nrm red ext P o l envs k OPTIMAL W Hw E) as (Iv & T & (lt & St)). destruct (stops_optimal o l lt k St) as (S1 & S2 & S3).
    destruct (rows_violation nrm Nn l k W Iv) as (x & Wx & Ox & Rx). exists x. split; [exact Wx|]. split; [exact Ox|]. split.
    - intros i Hi. destruct (Rx i Hi) as (A & B). destruct (Nn (lp_b l)) as (Nb & _). split; [nra|]. intros Hd. specialize (B Hd). nra.
    - intros Bd x' F. now apply (optimal_gap nrm Nn).
  Qed.
  Theorem ends_stmt o l envs : vanishing red -> lp_wf l -> (forall e, In e envs -> 0 < pe_weight e) -> 0 < mt_infty (lp_A l) -> (po_iteration_max o < length envs)%nat ->
    exists envs' k s, Forall2 same_env envs envs' /\ core_run nrm red ext o l envs' = Ok (Some (k, s)).
  Proof. intros V W Hw Hn Hl. now apply (run_ends nrm red ext P V). Qed.
  Theorem handed_over_stmt k pc (minimize : bool) obj vs order fixed less sels equals greater l0 l : lists_ok obj vs order fixed less sels equals greater ->
    (forall v, In v order -> va_fixed (vs v) = false -> (va_lower (vs v) <= va_upper (vs v))%Z) ->
    export minimize obj vs order fixed less sels equals greater = Ok l0 -> lp_scaling sq k pc l0 = Ok l ->
    lp_wf l0 /\ lp_wf l /\ (moderate_range vs order -> all_bounded l) /\
    forall y, admitted vs less sels equals greater y ->
      (exists x, lp_feasible l0 x /\ lp_objective l0 x == (if minimize then 1 else -(1)) * (e_eval obj y - ex_const obj)) /\
      (exists x, lp_feasible l x /\ lp_objective l x == (if minimize then 1 else -(1)) * (e_eval obj y - ex_const obj)).
  Proof.
    intros Lo Hb E0 E1. destruct (export_spec _ _ _ _ _ _ _ _ _ l0 Lo Hb E0) as (W0 & S1 & S2 & Md & Ec & Of & Sol).
    destruct (scaling_spec sq k pc l0 l Hs W0 S1 S2 E1) as (W & R1 & R2 & R3 & R4 & R5 & R6 & R7 & R8). split; [exact W0|]. split; [exact W|]. split.
    - intros M j Hj. rewrite R4, R5. apply (Md M). congruence.
    - intros y Hy. destruct (Sol y Hy) as (F & O). destruct (R8 _ F) as (F' & O'). split; [exists (point (columns vs order) y); now split|]. exists (scale (mt_col_scaler (lp_A l)) (point (columns vs order) y)). split; [exact F'|]. now rewrite O'.
  Qed.
End T.

(** 1-norm; powers 1/(n+1). *)
Definition norm1 (v : list Q) : Q := total (map Qabs v).
Lemma norm1_like : norm_like norm1.
Proof.
  intros v. unfold norm1. assert (N : 0 <= total (map Qabs v)). { induction v as [|a v IH]; cbn; [apply Qle_refl|]. pose proof (Qabs_nonneg a). lra. }
  split; [exact N|]. clear N. induction v as [|a v IH]; intros q []; cbn [map total].
  - subst. assert (N : 0 <= total (map Qabs v)). { clear. induction v as [|a v IH]; cbn; [apply Qle_refl|]. pose proof (Qabs_nonneg a). lra. } lra.
  - pose proof (Qabs_nonneg a). specialize (IH q H). lra.
Qed.
Definition pow1 (n : nat) : Q := 1 # Pos.of_succ_nat n.
Lemma pow1_powers : powers pow1 pow1.
Proof. intros n Hn. unfold pow1. repeat split; unfold Qlt; cbn; lia. Qed.
Lemma shrink_pow1 m : forall n, shrink pow1 n m == inject_Z (Z.of_nat (S n)) / inject_Z (Z.of_nat (S n + m)).
Proof.
  induction m as [|m IH]; intros n.
  - cbn [shrink]. rewrite Nat.add_0_r. field. unfold Qeq. cbn -[Z.of_nat]. lia.
  - cbn [shrink]. rewrite IH. replace (S (S n) + m)%nat with (S n + S m)%nat by lia.
    assert (E : 1 - pow1 (S n) == inject_Z (Z.of_nat (S n)) / inject_Z (Z.of_nat (S (S n)))).
    { unfold pow1. unfold Qeq, Qminus, Qplus, Qopp, Qdiv, Qmult, Qinv. cbn -[Z.mul Z.add Pos.mul]. lia. }
    rewrite E. field. split; unfold Qeq; cbn -[Z.of_nat]; lia.
Qed.
Lemma pow1_vanishing : vanishing pow1.
Proof.
  intros n eps He. destruct eps as [a b]. assert (Ha : (0 < a)%Z) by (unfold Qlt in He; cbn in He; lia).
  exists (S n * Pos.to_nat b)%nat. rewrite shrink_pow1. apply Qlt_shift_div_r; [unfold Qlt; cbn -[Z.of_nat]; lia|]. unfold Qlt. cbn -[Z.of_nat Z.mul]. nia.
Qed.
