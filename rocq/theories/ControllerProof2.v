(** Proofs for C59: what tightening does to the penalized objective; the whole update. *)
From Coq Require Import List ZArith QArith Qabs Qround Lia Lqa Bool.
From Verif Require Import ExprModel ConstraintModel EvalModel EvalSpec SolutionModel TabuModel ControllerModel ControllerSpec ControllerProof.
Import ListNotations.
Local Open Scope Q_scope.

Lemma above_nonneg c y : 0 <= above c y. Proof. unfold above. destruct (Qlt_le_dec _ _); lra. Qed.
Lemma below_nonneg c y : 0 <= below c y. Proof. unfold below. destruct (Qlt_le_dec _ _); lra. Qed.
Lemma penalty_pen c l g y : penalty (c_with_pen c l g) y ==
  match ct_sense c with Less => above c y * l | Equal => above c y * l + below c y * g | Greater => below c y * g end.
Proof. unfold penalty, above, below. cbn [c_with_pen ct_sense ct_expr ct_pen_less ct_pen_greater]. destruct (ct_sense c); lra. Qed.

(** What tightening adds to the penalty of one constraint. *)
Lemma tighten_one_penalty o lg count y gap tv ts i c c' :
  tighten_one o lg count y gap tv ts (i, c) = Some c' ->
  (penalty c' y == penalty c y /\ viol c y <= EPS) \/
  (exists d, delta o lg gap tv ts (count i) (raw_violation c y) = Some d /\ penalty c' y == penalty c y + co_tight o * d * viol c y).
Proof.
  unfold tighten_one. cbn [fst snd]. pose proof (eq_refl : 0 < EPS) as Ep.
  set (v := e_eval (ct_expr c) y).
  assert (A : above c y == qmax v 0) by (unfold above, qmax; fold v; destruct (Qlt_le_dec 0 v); destruct (Qlt_le_dec v 0); lra).
  assert (B : below c y == qmax (- v) 0) by (unfold below, qmax; fold v; destruct (Qlt_le_dec v 0); destruct (Qlt_le_dec (- v) 0); lra).
  destruct (ct_le c && _) eqn:E1.
  - apply andb_true_iff in E1 as [E1 E2]. destruct (Qlt_le_dec EPS (qmax v 0)) as [L|]; [|discriminate].
    destruct (delta _ _ _ _ _ _ _) as [d|] eqn:D; [|discriminate]. intros H. assert (c' = c_with_pen c (ct_pen_less c + co_tight o * d) (ct_pen_greater c)) by congruence. subst c'.
    right. exists d. split; [reflexivity|]. rewrite penalty_pen. unfold penalty, viol. unfold ct_le in E1.
    assert (Z0 : below c y == 0) by (unfold below; fold v; unfold qmax in L; destruct (Qlt_le_dec v 0); lra).
    destruct (ct_sense c); [| |discriminate]; rewrite ?Z0; ring.
  - destruct (ct_ge c && _) eqn:E2.
    + apply andb_true_iff in E2 as [E2 E3]. destruct (Qlt_le_dec EPS (qmax (- v) 0)) as [L|]; [|discriminate].
      destruct (delta _ _ _ _ _ _ _) as [d|] eqn:D; [|discriminate]. intros H. assert (c' = c_with_pen c (ct_pen_less c) (ct_pen_greater c + co_tight o * d)) by congruence. subst c'.
      right. exists d. split; [reflexivity|]. rewrite penalty_pen. unfold penalty, viol. unfold ct_ge in E2.
      assert (Z0 : above c y == 0) by (unfold above; fold v; unfold qmax in L; destruct (Qlt_le_dec (- v) 0); destruct (Qlt_le_dec 0 v); lra).
      destruct (ct_sense c); [discriminate| |]; rewrite ?Z0; ring.
    + intros H. assert (c' = c) by congruence. subst c'. left. split; [reflexivity|]. unfold viol. unfold ct_le, ct_ge in *. revert E1 E2.
      destruct (ct_sense c); cbn [andb]; destruct (Qlt_le_dec EPS (qmax v 0)); destruct (Qlt_le_dec EPS (qmax (- v) 0)); intros; try discriminate; try lra.
      unfold above, below. fold v. unfold qmax in *. destruct (Qlt_le_dec 0 v); destruct (Qlt_le_dec v 0); destruct (Qlt_le_dec (- v) 0); lra.
Qed.

(** Sums over numbered constraints. *)
Definition sum_over (f : nat * constr -> Q) (l : list (nat * constr)) : Q := fold_right (fun x q => f x + q) 0 l.
Lemma sum_over_le f g l : (forall x, In x l -> f x <= g x) -> sum_over f l <= sum_over g l.
Proof. unfold sum_over. induction l as [|x l IH]; intros H; cbn [fold_right]; [lra|]. pose proof (H x (or_introl eq_refl)). specialize (IH (fun y Hy => H y (or_intror Hy))). lra. Qed.
Lemma sum_over_scale k f l : sum_over (fun x => k * f x) l == k * sum_over f l.
Proof. unfold sum_over. induction l as [|x l IH]; cbn [fold_right]; [lra|]. rewrite IH. lra. Qed.
Lemma sum_over_plus f g l : sum_over (fun x => f x + g x) l == sum_over f l + sum_over g l.
Proof. unfold sum_over. induction l as [|x l IH]; cbn [fold_right]; [lra|]. rewrite IH. lra. Qed.
Lemma sum_enabled_le f l l' (u : nat * constr -> Q) :
  Forall2 (fun ic c' => ct_enabled c' = ct_enabled (snd ic) /\ (if ct_enabled (snd ic) then f c' <= f (snd ic) + u ic else 0 <= u ic)) l l' ->
  sum_enabled f l' <= sum_enabled f (map snd l) + sum_over u l.
Proof.
  unfold sum_over. induction 1 as [|ic c' l l' [E H] F IH]; cbn [sum_enabled map fold_right]; [lra|]. rewrite E. destruct (ct_enabled (snd ic)); lra.
Qed.
Lemma sum_enabled_eq f l l' (u : nat * constr -> Q) :
  Forall2 (fun ic c' => ct_enabled c' = ct_enabled (snd ic) /\ (if ct_enabled (snd ic) then f c' == f (snd ic) + u ic else u ic == 0)) l l' ->
  sum_enabled f l' == sum_enabled f (map snd l) + sum_over u l.
Proof.
  unfold sum_over. induction 1 as [|ic c' l l' [E H] F IH]; cbn [sum_enabled map fold_right]; [lra|]. rewrite E. destruct (ct_enabled (snd ic)); lra.
Qed.
Lemma sum_violation_over count y cs : sum_violation count y cs == sum_over (fun ic => raw_violation (snd ic) y * inject_Z (count (fst ic) + 1)) (numbered cs).
Proof. unfold sum_violation, sum_over. rewrite fold_sum. lra. Qed.
Lemma sum_squared_over lg count y cs : sum_squared lg count y cs == sum_over (fun ic => raw_violation (snd ic) y * raw_violation (snd ic) y * lg (count (fst ic))) (numbered cs).
Proof. unfold sum_squared, sum_over. rewrite fold_sum. lra. Qed.

(** Capping only lowers a penalty. *)
Lemma cap_penalty cap c y : penalty (cap_one cap c) y <= penalty c y.
Proof.
  unfold cap_one. rewrite penalty_pen. unfold penalty. pose proof (above_nonneg c y). pose proof (below_nonneg c y).
  pose proof (qmin_le_l (ct_pen_less c) cap). pose proof (qmin_le_l (ct_pen_greater c) cap). destruct (ct_sense c); nra.
Qed.
Lemma uncapped cap c : above_cap cap (ct_pen_less c) || above_cap cap (ct_pen_greater c) = false -> cap_one cap c = c_with_pen c (ct_pen_less c) (ct_pen_greater c).
Proof.
  unfold above_cap, cap_one, qmin. destruct (Qlt_le_dec cap (ct_pen_less c)); [discriminate|]. destruct (Qlt_le_dec cap (ct_pen_greater c)); [discriminate|]. reflexivity.
Qed.
Lemma same_pen c y : penalty (c_with_pen c (ct_pen_less c) (ct_pen_greater c)) y == penalty c y.
Proof. rewrite penalty_pen. unfold penalty. reflexivity. Qed.
Lemma tighten_one_enabled o lg count y gap tv ts i c c' : tighten_one o lg count y gap tv ts (i, c) = Some c' -> ct_enabled c' = ct_enabled c.
Proof.
  unfold tighten_one. cbn [fst snd]. destruct (delta _ _ _ _ _ _ _); destruct (ct_le c && _); try discriminate; try (intros H; injection H as <-; reflexivity);
  destruct (ct_ge c && _); try discriminate; intros H; injection H as <-; reflexivity.
Qed.

Section Tighten.
Variables (o : copt) (lg : Z -> Q) (count : nat -> Z) (y : nat -> Z) (gap : Q) (cs : list constr).
Hypothesis (S : sensible o) (L : log_like lg) (C : counted count cs).
Let tv := sum_violation count y cs.
Let ts := sum_squared lg count y cs.
Let share ic := co_tight o * (co_balance o * (qmax 0 gap / tv)) * raw_violation (snd ic) y
                + co_tight o * ((1 - co_balance o) * (qmax 0 gap / ts)) * (raw_violation (snd ic) y * raw_violation (snd ic) y * lg (count (fst ic))).

Lemma share_delta i c d : delta o lg gap tv ts (count i) (raw_violation c y) = Some d -> co_tight o * d * viol c y == share (i, c).
Proof.
  unfold delta, share. destruct (Qeq_bool tv 0 || Qeq_bool ts 0) eqn:E; [discriminate|]. apply orb_false_iff in E as [E1 E2].
  assert (N1 : ~ tv == 0) by (intros K; apply Qeq_bool_iff in K; congruence). assert (N2 : ~ ts == 0) by (intros K; apply Qeq_bool_iff in K; congruence).
  intros H. assert (Ed : d = co_balance o * (qmax 0 gap / tv) + (1 - co_balance o) * (qmax 0 gap / ts * lg (count i) * raw_violation c y)) by congruence. rewrite Ed. cbn [fst snd]. rewrite <- raw_viol. field. split; assumption.
Qed.
Lemma share_nonneg ic : ~ tv == 0 -> ~ ts == 0 -> In ic (numbered cs) -> 0 <= share ic.
Proof.
  intros N1 N2 H. pose proof (squared_terms lg count y cs L C ic H) as Q2. unfold share. pose proof (raw_nonneg (snd ic) y) as R. pose proof (qmax_ge_l 0 gap) as G.
  destruct S as (_ & S2 & (S3 & S4) & _).
  pose proof (div_nonneg _ tv G (sum_violation_nonneg count y cs C) N1) as D1. pose proof (div_nonneg _ ts G (sum_squared_nonneg lg count y cs L C) N2) as D2.
  assert (0 <= co_tight o * (co_balance o * (qmax 0 gap / tv)) * raw_violation (snd ic) y) by (apply Qmult_le_0_compat; [apply Qmult_le_0_compat; [assumption|apply Qmult_le_0_compat; assumption]|assumption]).
  assert (0 <= co_tight o * ((1 - co_balance o) * (qmax 0 gap / ts)) * (raw_violation (snd ic) y * raw_violation (snd ic) y * lg (count (fst ic)))) by
    (apply Qmult_le_0_compat; [apply Qmult_le_0_compat; [assumption|apply Qmult_le_0_compat; [lra|assumption]]|assumption]). lra.
Qed.
Lemma share_sum : ~ tv == 0 -> ~ ts == 0 -> sum_over share (numbered cs) <= co_tight o * qmax 0 gap /\ (co_balance o == 0 -> sum_over share (numbered cs) == co_tight o * qmax 0 gap).
Proof.
  intros N1 N2. unfold share. rewrite sum_over_plus. rewrite (sum_over_scale _ (fun ic => raw_violation (snd ic) y)), (sum_over_scale _ (fun ic => raw_violation (snd ic) y * raw_violation (snd ic) y * lg (count (fst ic)))).
  rewrite <- sum_squared_over. fold ts.
  assert (V : sum_over (fun ic => raw_violation (snd ic) y) (numbered cs) <= tv).
  { unfold tv. rewrite sum_violation_over. apply sum_over_le. intros [i c] H. apply numbered_in in H. cbn [fst snd]. pose proof (raw_nonneg c y).
    assert (1 <= inject_Z (count i + 1)) by (change 1 with (inject_Z 1); rewrite <- Zle_Qle; specialize (C i c H); lia). nra. }
  pose proof (sum_violation_nonneg count y cs C) as T. fold tv in T. pose proof (qmax_ge_l 0 gap) as G. destruct S as (_ & S2 & (S3 & S4) & _).
  set (W := sum_over (fun ic => raw_violation (snd ic) y) (numbered cs)) in *.
  assert (E2 : co_tight o * ((1 - co_balance o) * (qmax 0 gap / ts)) * ts == co_tight o * ((1 - co_balance o) * qmax 0 gap)) by (field; exact N2). rewrite E2.
  split.
  - pose proof (div_nonneg _ tv G T N1) as D1.
    assert (B : co_tight o * (co_balance o * (qmax 0 gap / tv)) * W <= co_tight o * (co_balance o * (qmax 0 gap / tv)) * tv).
    { rewrite (Qmult_comm _ W), (Qmult_comm _ tv). apply Qmult_le_compat_r; [exact V|]. apply Qmult_le_0_compat; [assumption|]. apply Qmult_le_0_compat; assumption. }
    assert (E1 : co_tight o * (co_balance o * (qmax 0 gap / tv)) * tv == co_tight o * (co_balance o * qmax 0 gap)) by (field; exact N1). rewrite E1 in B. lra.
  - intros Z0. rewrite Z0. lra.
Qed.
Lemma delta_some i c d : delta o lg gap tv ts (count i) (raw_violation c y) = Some d -> ~ tv == 0 /\ ~ ts == 0.
Proof.
  unfold delta. destruct (Qeq_bool tv 0 || Qeq_bool ts 0) eqn:E; [discriminate|]. apply orb_false_iff in E as [E1 E2]. intros _.
  split; intros K; apply Qeq_bool_iff in K; congruence.
Qed.

Lemma tighten_bound cs' ex : co_group o = false -> tighten_penalties o lg count y gap cs = Some (cs', ex) ->
  sum_enabled (fun c => penalty c y) cs' <= sum_enabled (fun c => penalty c y) cs + co_tight o * qmax 0 gap.
Proof.
  intros Hg H. unfold tighten_penalties in H. rewrite Hg in H. fold tv ts in H.
  destruct (all_some (map (tighten_one o lg count y gap tv ts) (numbered cs))) as [cs1|] eqn:E; [|discriminate].
  assert (Hc : cs' = map (cap_one (co_initial o)) cs1) by congruence. subst cs'. clear H. apply all_some_in in E.
  assert (K1 : sum_enabled (fun c => penalty c y) (map (cap_one (co_initial o)) cs1) <= sum_enabled (fun c => penalty c y) cs1).
  { clear. induction cs1 as [|c l IH]; cbn [map sum_enabled]; [lra|]. pose proof (cap_penalty (co_initial o) c y). change (ct_enabled (cap_one (co_initial o) c)) with (ct_enabled c). destruct (ct_enabled c); lra. }
  pose proof (qmax_ge_l 0 gap) as G. assert (T : 0 <= co_tight o * qmax 0 gap) by (destruct S as (_ & S2 & _); apply Qmult_le_0_compat; assumption).
  destruct (Qeq_dec tv 0) as [N1|N1]; [|destruct (Qeq_dec ts 0) as [N2|N2]].
  1,2: assert (K2 : sum_enabled (fun c => penalty c y) cs1 <= sum_enabled (fun c => penalty c y) (map snd (numbered cs)) + sum_over (fun _ => 0) (numbered cs));
    [apply sum_enabled_le; refine (forall2_impl _ _ _ _ _ E); intros [i c] c' Hin K; cbn [snd]; split; [eapply tighten_one_enabled; exact K|];
     destruct (ct_enabled c); [|lra]; apply tighten_one_penalty in K as [[K _]|(d & D & _)]; [lra|apply delta_some in D; tauto]|].
  1,2: rewrite numbered_snd in K2; assert (Z0 : sum_over (fun _ => 0) (numbered cs) == 0) by (unfold sum_over; clear; induction (numbered cs) as [|a l IH]; cbn [fold_right]; lra); lra.
  assert (K2 : sum_enabled (fun c => penalty c y) cs1 <= sum_enabled (fun c => penalty c y) (map snd (numbered cs)) + sum_over share (numbered cs)).
  { apply sum_enabled_le. refine (forall2_impl _ _ _ _ _ E). intros [i c] c' Hin K. cbn [snd]. split; [eapply tighten_one_enabled; exact K|].
    pose proof (share_nonneg (i, c) N1 N2 Hin). destruct (ct_enabled c); [|assumption]. apply tighten_one_penalty in K as [[K _]|(d & D & K)]; [lra|]. rewrite (share_delta i c d D) in K. lra. }
  rewrite numbered_snd in K2. destruct (share_sum N1 N2) as [B _]. lra.
Qed.
Lemma tighten_exact cs' : co_group o = false -> co_balance o == 0 -> clear_violations count y cs -> (exists c, In c cs /\ 0 < viol c y) ->
  tighten_penalties o lg count y gap cs = Some (cs', false) ->
  sum_enabled (fun c => penalty c y) cs' == sum_enabled (fun c => penalty c y) cs + co_tight o * qmax 0 gap.
Proof.
  intros Hg Hb [V1 V2] (w & Hw & Vw) H. unfold tighten_penalties in H. rewrite Hg in H. fold tv ts in H.
  destruct (all_some (map (tighten_one o lg count y gap tv ts) (numbered cs))) as [cs1|] eqn:E; [|discriminate].
  assert (Hc : cs' = map (cap_one (co_initial o)) cs1) by congruence. assert (He : exceeds_cap (co_initial o) cs1 = false) by congruence. subst cs'. clear H. apply all_some_in in E.
  assert (K1 : sum_enabled (fun c => penalty c y) (map (cap_one (co_initial o)) cs1) == sum_enabled (fun c => penalty c y) cs1).
  { clear - He. unfold exceeds_cap in He. induction cs1 as [|c l IH]; cbn [map sum_enabled]; [lra|]. cbn [existsb] in He. apply orb_false_iff in He as [H1 H2]. rewrite (uncapped _ _ H1).
    pose proof (same_pen c y). cbn [c_with_pen ct_enabled]. specialize (IH H2). destruct (ct_enabled c); lra. }
  assert (N : ~ tv == 0 /\ ~ ts == 0).
  { apply In_nth_error in Hw as (i & Hi). apply numbered_in in Hi. assert (X : exists c', tighten_one o lg count y gap tv ts (i, w) = Some c').
    { clear - E Hi. induction E as [|a b l l' Hab F IH]; [destruct Hi|]. destruct Hi as [->|Hi]; [exists b; exact Hab|now apply IH]. }
    destruct X as (c' & X). apply tighten_one_penalty in X as [[_ X]|(d & D & _)]; [|eapply delta_some; exact D].
    exfalso. apply numbered_in in Hi. destruct (V1 w (nth_error_In _ _ Hi)); lra. }
  destruct N as [N1 N2].
  assert (K2 : sum_enabled (fun c => penalty c y) cs1 == sum_enabled (fun c => penalty c y) (map snd (numbered cs)) + sum_over share (numbered cs)).
  { apply sum_enabled_eq. refine (forall2_impl _ _ _ _ _ E). intros [i c] c' Hin K. cbn [snd]. split; [eapply tighten_one_enabled; exact K|].
    apply numbered_in in Hin. destruct (V2 i c Hin) as [_ V3].
    destruct (ct_enabled c) eqn:Ec.
    - apply tighten_one_penalty in K as [[K Ke]|(d & D & K)]; [|now rewrite (share_delta i c d D) in K].
      assert (V0 : viol c y == 0) by (destruct (V1 c (nth_error_In _ _ Hin)); lra). rewrite K. unfold share. cbn [fst snd]. rewrite raw_viol, V0. ring.
    - unfold share. cbn [fst snd]. rewrite (V3 eq_refl). destruct L as [L0 _]. rewrite L0, Hb. ring. }
  rewrite numbered_snd in K2. destruct (share_sum N1 N2) as [_ B]. rewrite K1, K2, (B Hb). reflexivity.
Qed.
End Tighten.
