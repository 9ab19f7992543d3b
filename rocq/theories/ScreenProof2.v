(** Consequences of the flag invariant for C39, C40; the naive dual bound (C41). *)
From Coq Require Import List ZArith NArith QArith Qabs Lia Lqa Bool.
From Verif Require Import ExprModel ExprSpec ExprProof ConstraintModel ConstraintSpec ConstraintProof
  EvalModel EvalSpec EvalSpec2 EvalProof EvalProof2 EvalProof3 VariableModel PresolveModel MoveModel MoveSpec ScreenModel ScreenSpec ScreenProof.
Import ListNotations.
Local Open Scope Q_scope.

Lemma inject_pos z : 0 < inject_Z z -> (0 < z)%Z.
Proof. change 0 with (inject_Z 0). now rewrite <- Zlt_Qlt. Qed.
Lemma inject_neg z : inject_Z z < 0 -> (z < 0)%Z.
Proof. change 0 with (inject_Z 0). now rewrite <- Zlt_Qlt. Qed.
Lemma Qmul_sign a b : a * b < 0 -> (0 < a /\ b < 0) \/ (a < 0 /\ 0 < b).
Proof.
  intros H. destruct (Qlt_le_dec 0 a) as [P|P].
  - left. split; [exact P|]. destruct (Qlt_le_dec b 0); [assumption|]. exfalso. nra.
  - destruct (Qlt_le_dec 0 b) as [R|R].
    + right. split; [|exact R]. destruct (Qlt_le_dec a 0); [assumption|]. exfalso. assert (a == 0) by lra. nra.
    + exfalso. nra.
Qed.

Lemma delta_scaled k s x m : k * delta s x m < 0 ->
  exists v n, In (v, n) m /\ (k * coef s v) * inject_Z (n - x v) < 0.
Proof.
  induction m as [|[v n] m IH]; cbn [delta]; intros H; [lra|].
  destruct (Qlt_le_dec ((k * coef s v) * inject_Z (n - x v)) 0) as [L|L].
  - exists v, n. split; [now left|exact L].
  - destruct IH as (w & k' & H1 & H2); [lra|]. exists w, k'. split; [now right|exact H2].
Qed.
Lemma coef_in s v : ~ coef s v == 0 -> In (v, coef s v) s.
Proof.
  unfold coef. destruct (sens_find s v) eqn:E; [intros _; now apply find_in|]. intros H. exfalso. apply H. reflexivity.
Qed.

Lemma improves_flagged mutables s m : model_wf (ss_ms s) ->
  (forall v, In v mutables -> ss_obj s v = objective_improvable s v) ->
  (forall v, In v (keys (md_obj (ms_model (ss_ms s)))) -> ms_fixed (ss_ms s) v = false -> In v mutables) ->
  allowed s m -> improves s m -> has_flagged (ss_obj s) m = true.
Proof.
  intros (_ & W & _) O Hm [P A] H. unfold improves, cost in H. rewrite !eval_lin, (lin_apply _ _ W _ P) in H.
  set (k := md_sign (ms_model (ss_ms s))) in *. set (q := ex_sens (md_obj (ms_model (ss_ms s)))) in *.
  destruct (delta_scaled k q (ms_x (ss_ms s)) m) as (v & n & Hin & Hs); [lra|].
  destruct (A v n Hin) as (Fx & Lo & Hi). unfold has_flagged. apply existsb_exists. exists (v, n). split; [exact Hin|]. cbn [fst].
  assert (Hc : ~ coef q v == 0) by (intros E; rewrite E in Hs; lra).
  assert (Hk : In v (keys (md_obj (ms_model (ss_ms s))))) by (apply in_map_iff; exists (v, coef q v); split; [reflexivity|now apply coef_in]).
  rewrite (O v (Hm v Hk Fx)). unfold objective_improvable. change (objective_sensitivity s v) with (coef q v). fold k.
  apply orb_true_iff. destruct (Qmul_sign _ _ Hs) as [[S1 S2]|[S1 S2]].
  - left. apply andb_true_iff. split; [apply qpos_iff; lra|]. apply inject_neg in S2. unfold lower_margin. apply Z.ltb_lt. lia.
  - right. apply andb_true_iff. split; [apply qneg_iff; lra|]. apply inject_pos in S2. unfold upper_margin. apply Z.ltb_lt. lia.
Qed.

Lemma violated_iff s c : good (ss_ms s) -> In c (md_cons (ms_model (ss_ms s))) -> ct_enabled c = true ->
  (c_is_feasible c = false <-> EPS <= viol c (ms_x (ss_ms s))) /\ ct_value c == e_eval (ct_expr c) (ms_x (ss_ms s)).
Proof.
  intros (G & _) Hc He. destruct (G c Hc He) as [(A1 & A2 & A3 & A4 & A5) _]. split; [|exact A2].
  apply distance_viol in A5. destruct (c_is_feasible c) eqn:E.
  - apply c_feasible_iff in E. split; [discriminate|]. intros K. exfalso. lra.
  - split; [intros _|reflexivity]. destruct (Qlt_le_dec (viol c (ms_x (ss_ms s))) EPS) as [L|L]; [|exact L].
    rewrite <- A5 in L. apply c_feasible_iff in L. congruence.
Qed.

Lemma repairs_wanted s m : model_wf (ss_ms s) -> good (ss_ms s) -> allowed s m -> repairs s m ->
  exists v n, In (v, n) m /\ fresh s v.
Proof.
  intros (W & _) G [P A] (c & (Hc & He & Hv) & Hr).
  destruct (violated_iff s c G Hc He) as [V Ev]. apply V in Hv as Hnf.
  set (x := ms_x (ss_ms s)) in *.
  pose proof (lin_apply (ex_sens (ct_expr c)) m (W c Hc) x P) as Hl.
  assert (E' : e_eval (ct_expr c) (apply_move x m) == e_eval (ct_expr c) x + delta (ex_sens (ct_expr c)) x m) by (rewrite !eval_lin, Hl; lra).
  set (d := delta (ex_sens (ct_expr c)) x m) in *. set (val := e_eval (ct_expr c) x) in *. set (val' := e_eval (ct_expr c) (apply_move x m)) in *.
  assert (Hpos : 0 < EPS) by reflexivity.
  unfold viol, above, below in Hv, Hr. fold val in Hv, Hr. fold val' in Hr.
  destruct (qpos (ct_value c)) eqn:Q.
  - apply qpos_iff in Q. rewrite Ev in Q.
    assert (D : 1 * d < 0).
    { destruct (ct_sense c); destruct (Qlt_le_dec 0 val); destruct (Qlt_le_dec 0 val'); try destruct (Qlt_le_dec val 0); try destruct (Qlt_le_dec val' 0); lra. }
    destruct (delta_scaled _ _ _ _ D) as (v & n & Hin & Hs). exists v, n. split; [exact Hin|].
    destruct (A v n Hin) as (Fx & Lo & Hi). fold x in Hs.
    assert (Hcf : ~ coef (ex_sens (ct_expr c)) v == 0) by (intros E; rewrite E in Hs; lra).
    exists c. split; [exact Hc|]. split; [exact Hnf|]. split; [exact He|]. exists (coef (ex_sens (ct_expr c)) v).
    split; [now apply coef_in|]. split; [exact Fx|]. assert (Q' : qpos (ct_value c) = true) by (apply qpos_iff; lra). rewrite Q'.
    unfold lower_margin, upper_margin. fold x.
    destruct (Qmul_sign _ _ Hs) as [[S1 S2]|[S1 S2]].
    + left. split; [lra|]. apply inject_neg in S2. apply Z.ltb_lt. lia.
    + right. split; [lra|]. apply inject_pos in S2. apply Z.ltb_lt. lia.
  - apply qpos_false in Q. rewrite Ev in Q.
    assert (D : (-1) * d < 0).
    { destruct (ct_sense c); destruct (Qlt_le_dec 0 val); destruct (Qlt_le_dec 0 val'); try destruct (Qlt_le_dec val 0); try destruct (Qlt_le_dec val' 0); lra. }
    destruct (delta_scaled _ _ _ _ D) as (v & n & Hin & Hs). exists v, n. split; [exact Hin|].
    destruct (A v n Hin) as (Fx & Lo & Hi). fold x in Hs.
    assert (Hcf : ~ coef (ex_sens (ct_expr c)) v == 0) by (intros E; rewrite E in Hs; lra).
    exists c. split; [exact Hc|]. split; [exact Hnf|]. split; [exact He|]. exists (coef (ex_sens (ct_expr c)) v).
    split; [now apply coef_in|]. split; [exact Fx|]. assert (Q' : qpos (ct_value c) = false) by (apply qpos_false; lra). rewrite Q'.
    unfold lower_margin, upper_margin. fold x.
    destruct (Qmul_sign _ _ Hs) as [[S1 S2]|[S1 S2]].
    + left. split; [lra|]. apply inject_neg in S2. apply Z.ltb_lt. lia.
    + right. split; [lra|]. apply inject_pos in S2. apply Z.ltb_lt. lia.
Qed.

Lemma fresh_helps s v : model_wf (ss_ms s) -> good (ss_ms s) ->
  (forall c u a, In c (md_cons (ms_model (ss_ms s))) -> In (u, a) (ex_sens (ct_expr c)) -> ~ a == 0) ->
  (ss_lo s v <= ms_x (ss_ms s) v <= ss_hi s v)%Z -> fresh s v -> helps s v.
Proof.
  intros (W & _) G Z B (c & Hc & Wf & We & a & Wa & Wx & Wm).
  destruct (violated_iff s c G Hc We) as [V Ev]. pose proof (Z c v a Hc Wa) as Ha.
  split; [exact Wx|].
  assert (Hcoef : coef (ex_sens (ct_expr c)) v = a) by (unfold coef; now rewrite (in_find _ _ _ (W c Hc) Wa)).
  assert (St : forall n, e_eval (ct_expr c) (set_val (ms_x (ss_ms s)) v n) == e_eval (ct_expr c) (ms_x (ss_ms s)) + a * inject_Z (n - ms_x (ss_ms s) v)).
  { intros n. rewrite !eval_lin, (lin_set _ _ _ _ (W c Hc)), Hcoef. lra. }
  set (x := ms_x (ss_ms s)) in *.
  assert (Vc : violated s c) by (split; [exact Hc|]; split; [exact We|now apply V]).
  assert (Down : forall n, n = (x v - 1)%Z -> inject_Z (n - x v) == -1) by (intros n ->; replace (x v - 1 - x v)%Z with (-1)%Z by lia; reflexivity).
  assert (Up : forall n, n = (x v + 1)%Z -> inject_Z (n - x v) == 1) by (intros n ->; replace (x v + 1 - x v)%Z with 1%Z by lia; reflexivity).
  unfold lower_margin, upper_margin in Wm. fold x in Wm. exists c.
  destruct (qpos (ct_value c)) eqn:Q; [apply qpos_iff in Q|apply qpos_false in Q]; rewrite Ev in Q;
    destruct Wm as [[W1 W2]|[W1 W2]]; apply Z.ltb_lt in W2.
  - exists (x v - 1)%Z. split; [exact Vc|]. split; [now left|]. split; [lia|]. cbv zeta. rewrite St, (Down _ eq_refl). split; intros; lra.
  - exists (x v + 1)%Z. split; [exact Vc|]. split; [now right|]. split; [lia|]. cbv zeta. rewrite St, (Up _ eq_refl). split; intros; lra.
  - exists (x v - 1)%Z. split; [exact Vc|]. split; [now left|]. split; [lia|]. cbv zeta. rewrite St, (Down _ eq_refl). split; intros; lra.
  - exists (x v + 1)%Z. split; [exact Vc|]. split; [now right|]. split; [lia|]. cbv zeta. rewrite St, (Up _ eq_refl). split; intros; lra.
Qed.

(** ** Screening only drops moves without a flagged variable *)
Lemma flag_all_in r vs ac avail ms m f : In (m, f) (flag_all r vs ac avail ms) ->
  exists i, In (i, m) (combine (seq 0 (length ms)) ms) /\ f = move_flag r vs ac (avail i) m.
Proof.
  unfold flag_all. rewrite in_map_iff. intros ([i m'] & E & H). cbn [fst snd] in E.
  assert (m' = m) by congruence. subst m'. exists i. split; [exact H|congruence].
Qed.
Lemma in_flag_all r vs ac avail ms m i : In (i, m) (combine (seq 0 (length ms)) ms) ->
  In (m, move_flag r vs ac (avail i) m) (flag_all r vs ac avail ms).
Proof. intros H. unfold flag_all. apply in_map_iff. exists (i, m). split; [reflexivity|exact H]. Qed.

Definition passes (ac : accept) (m : alterations) : bool :=
  (ac_obj ac && has_flagged (im_obj ac) m) || (ac_feas ac && has_flagged (im_feas ac) m).
Lemma move_flag_passes r vs ac b m : passes ac m = true -> move_flag r vs everything b m <> 0%Z -> move_flag r vs ac b m <> 0%Z.
Proof.
  unfold passes, move_flag. intros H. cbn [everything ac_all].
  destruct (ru_available r && negb b); [tauto|]. destruct (ru_selection r && has_selection vs m); [tauto|].
  destruct (has_fixed vs m); [tauto|]. destruct (ru_bounds r && has_bound_violation vs m); [tauto|].
  destruct (ru_same r && has_same vs m); [tauto|]. intros _. destruct (ac_all ac); [discriminate|].
  destruct (ac_obj ac && has_flagged (im_obj ac) m); [discriminate|]. cbn [orb] in H. rewrite H. discriminate.
Qed.
Lemma flag_all_passes r vs ac avail ms m f : passes ac m = true -> In (m, f) (flag_all r vs everything avail ms) -> f <> 0%Z ->
  exists f', In (m, f') (flag_all r vs ac avail ms) /\ f' <> 0%Z.
Proof.
  intros H Hin Hf. apply flag_all_in in Hin as (i & Hi & ->). exists (move_flag r vs ac (avail i) m). split; [now apply in_flag_all|].
  now apply move_flag_passes.
Qed.
Lemma offered_screened addr vs ac g m : passes ac m = true -> offered addr vs everything g m -> offered addr vs ac g m.
Proof.
  intros H (l & f & Hg & Hin & Hf). unfold offered.
  assert (Case : forall r avail ms, In (m, f) (flag_all r vs everything avail ms) ->
    exists l0 f0, Some (flag_all r vs ac avail ms) = Some l0 /\ In (m, f0) l0 /\ f0 <> 0%Z).
  { intros r avail ms K. destruct (flag_all_passes r vs ac avail ms m f H K Hf) as (f' & K1 & K2). eauto. }
  destruct g as [l0|l0|t items avail|ms avail|pairs avail|ms]; cbn [gen_update] in *.
  - assert (l = map (binary_move vs everything) l0) by congruence. subst l.
    apply in_map_iff in Hin as (v & E & Hv). unfold binary_move in E. assert (m = [(v, 1 - va_value (vs v))%Z]) by congruence. subst m.
    do 2 eexists. split; [reflexivity|]. split; [apply in_map_iff; exists v; split; [reflexivity|exact Hv]|].
    unfold passes, has_flagged in H. cbn [existsb fst] in H. rewrite !orb_false_r in H.
    destruct (ac_all ac), (ac_obj ac), (ac_feas ac), (im_obj ac v), (im_feas ac v); cbn in H |- *; congruence.
  - assert (l = flat_map (integer_moves vs everything) l0) by congruence. subst l.
    apply in_flat_map in Hin as (v & Hv & Hin).
    assert (Hok : ac_all ac || (ac_obj ac && im_obj ac v) || (ac_feas ac && im_feas ac v) = true \/ True) by now right.
    assert (K : exists f', In (m, f') (integer_moves vs ac v) /\ f' <> 0%Z).
    { unfold integer_moves in *. cbv zeta in *. cbn [everything ac_all orb andb] in Hin.
      assert (Ok : fst (hd (0%nat, 0%Z) m) = v -> m <> [] -> length m = 1%nat -> ac_all ac || ac_obj ac && im_obj ac v || ac_feas ac && im_feas ac v = true).
      { intros E N L. destruct m as [|[w n] [|]]; try discriminate. cbn in E. subst w.
        unfold passes, has_flagged in H. cbn [existsb fst] in H. rewrite !orb_false_r in H.
        rewrite <- orb_assoc, H. apply orb_true_r. }
      destruct Hin as [E|[E|[E|[E|[]]]]];
      (rewrite (Ok ltac:(replace m with (fst (m, f)) by reflexivity; rewrite <- E; reflexivity) ltac:(congruence) ltac:(replace m with (fst (m, f)) by reflexivity; rewrite <- E; reflexivity));
       cbn [andb]; exists f; split; [|exact Hf]; cbn [In]; auto 10). }
    destruct K as (f' & K1 & K2). exists (flat_map (integer_moves vs ac) l0), f'.
    split; [reflexivity|]. split; [|exact K2]. apply in_flat_map. eauto.
  - destruct (concat_options _) as [ms|]; [|discriminate]. cbn [option_map] in *. apply Case. congruence.
  - apply Case. congruence.
  - apply Case. congruence.
  - apply Case. congruence.
Qed.

Lemma search_last md mutables s0 ms : exists last s, search md mutables s0 ms = screen md mutables last s.
Proof.
  unfold search. revert s0. assert (K : forall r, (exists last s, r = screen md mutables last s) ->
    exists last s, fold_left (fun r ml => screen md mutables (Some ml) (advance (fst r) ml)) ms r = screen md mutables last s).
  { induction ms as [|ml ms IH]; intros r H; cbn [fold_left]; [exact H|]. apply IH. eauto. }
  intros s0. apply K. eauto.
Qed.
Lemma screen_accept md mutables last s : md <> ScreenOff ->
  (ms_feasible (ss_ms s) = true -> snd (screen md mutables last s) = (false, true, false)) /\
  (ms_feasible (ss_ms s) = false -> snd (screen md mutables last s) = (false, match md with Soft => true | _ => false end, true)).
Proof.
  intros H. unfold screen. destruct md; [congruence| | | |]; destruct (ms_feasible (ss_ms s)); (split; [intros E|intros E]); try discriminate; reflexivity.
Qed.

Lemma improving_offered md mutables s0 lo hi ms addr sense g m : md <> ScreenOff -> start_ok mutables s0 -> Forall (search_move s0) ms ->
  let r := search md mutables (preprocess s0 lo hi) ms in
  ms_feasible (ss_ms (fst r)) = true -> allowed (fst r) m -> improves (fst r) m ->
  offered addr (seen (fst r) sense) everything g m -> offered addr (seen (fst r) sense) (acceptance r) g m.
Proof.
  intros Hm St F. cbv zeta. intros Hf A I O.
  destruct (search_sinv md mutables s0 lo hi ms St F) as ((G & Ob & _) & S & W). cbv zeta in *.
  apply offered_screened; [|exact O].
  destruct (search_last md mutables (preprocess s0 lo hi) ms) as (last & t & E).
  set (r := search md mutables (preprocess s0 lo hi) ms) in *.
  assert (Ft : ms_feasible (ss_ms t) = true).
  { rewrite E in Hf. destruct (screen_ms md mutables last t) as (E1 & _). now rewrite E1 in Hf. }
  pose proof (proj1 (screen_accept md mutables last t Hm) Ft) as Ea. rewrite <- E in Ea.
  unfold passes, acceptance. rewrite Ea. cbn [ac_obj im_obj ac_feas im_feas andb orb]. rewrite orb_false_r.
  apply (improves_flagged mutables); [exact W|apply (Ob Hm)| |exact A|exact I].
  destruct St as (_ & _ & St). destruct S as (_ & _ & S3 & _ & S5 & _). rewrite S3, S5. exact St.
Qed.

Lemma repairing_offered md mutables s0 lo hi ms addr sense g m : exact_mode md -> start_ok mutables s0 -> Forall (search_move s0) ms ->
  let r := search md mutables (preprocess s0 lo hi) ms in
  ms_feasible (ss_ms (fst r)) = false -> allowed (fst r) m -> repairs (fst r) m ->
  offered addr (seen (fst r) sense) everything g m -> offered addr (seen (fst r) sense) (acceptance r) g m.
Proof.
  intros Hm St F. cbv zeta. intros Hf A I O.
  destruct (search_sinv md mutables s0 lo hi ms St F) as ((G & _ & Fe) & S & W). cbv zeta in *.
  apply offered_screened; [|exact O].
  destruct (search_last md mutables (preprocess s0 lo hi) ms) as (last & t & E).
  set (r := search md mutables (preprocess s0 lo hi) ms) in *.
  assert (Ft : ms_feasible (ss_ms t) = false).
  { rewrite E in Hf. destruct (screen_ms md mutables last t) as (E1 & _). now rewrite E1 in Hf. }
  assert (Hm' : md <> ScreenOff) by (destruct Hm as [-> | [-> | ->]]; discriminate).
  pose proof (proj2 (screen_accept md mutables last t Hm') Ft) as Ea. rewrite <- E in Ea.
  destruct (repairs_wanted (fst r) m W G A I) as (v & n & Hin & Hv). apply (Fe Hm Hf) in Hv.
  unfold passes, acceptance. rewrite Ea. cbn [ac_obj im_obj ac_feas im_feas andb orb].
  apply orb_true_iff. right. unfold has_flagged. apply existsb_exists. exists (v, n). split; [exact Hin|exact Hv].
Qed.

Lemma flagged_helps md mutables s0 lo hi ms v : exact_mode md -> start_ok mutables s0 -> Forall (search_move s0) ms ->
  let s := fst (search md mutables (preprocess s0 lo hi) ms) in
  (forall c u a, In c (md_cons (ms_model (ss_ms s))) -> In (u, a) (ex_sens (ct_expr c)) -> ~ a == 0) ->
  (ss_lo s v <= ms_x (ss_ms s) v <= ss_hi s v)%Z ->
  ms_feasible (ss_ms s) = false -> ss_feas s v = true -> helps s v.
Proof.
  intros Hm St F. cbv zeta. intros Z B Hf Hv.
  destruct (search_sinv md mutables s0 lo hi ms St F) as ((G & _ & Fe) & S & W). cbv zeta in *.
  apply fresh_helps; [exact W|exact G|exact Z|exact B|]. now apply (Fe Hm Hf).
Qed.

(** ** OPTIMAL *)
Lemma corner_optimal k (q : sens) s y : (forall v a, In (v, a) q ->
    ms_fixed (ss_ms s) v = false -> (qpos (a * k) && lower_margin s v) || (qneg (a * k) && upper_margin s v) = false) ->
  reachable s y -> k * lin q (ms_x (ss_ms s)) <= k * lin q y.
Proof.
  intros H R. induction q as [|[v a] q IH]; cbn [lin]; [lra|].
  assert (T : k * (a * inject_Z (ms_x (ss_ms s) v)) <= k * (a * inject_Z (y v))).
  { specialize (R v). specialize (H v a (or_introl eq_refl)). destruct (ms_fixed (ss_ms s) v).
    - rewrite R. lra.
    - specialize (H eq_refl). apply orb_false_iff in H as [H1 H2].
      assert (D : k * (a * inject_Z (y v)) - k * (a * inject_Z (ms_x (ss_ms s) v)) == (a * k) * inject_Z (y v - ms_x (ss_ms s) v)).
      { replace (y v - ms_x (ss_ms s) v)%Z with (y v + - ms_x (ss_ms s) v)%Z by lia. rewrite inject_Z_plus, inject_Z_opp. lra. }
      assert (0 <= (a * k) * inject_Z (y v - ms_x (ss_ms s) v)); [|lra].
      destruct (Qlt_le_dec ((a * k) * inject_Z (y v - ms_x (ss_ms s) v)) 0) as [L|L]; [|exact L]. exfalso.
      destruct (Qmul_sign _ _ L) as [[S1 S2]|[S1 S2]].
      + apply qpos_iff in S1. rewrite S1 in H1. cbn [andb] in H1. unfold lower_margin in H1. apply Z.ltb_ge in H1.
        apply inject_neg in S2. lia.
      + apply qneg_iff in S1. rewrite S1 in H2. cbn [andb] in H2. unfold upper_margin in H2. apply Z.ltb_ge in H2.
        apply inject_pos in S2. lia. }
  assert (IH' : k * lin q (ms_x (ss_ms s)) <= k * lin q y) by (apply IH; intros w b Hw; apply H; now right).
  rewrite !Qmult_plus_distr_r. lra.
Qed.

Lemma optimal_claim md mutables variables s0 lo hi ms gap n : md <> ScreenOff -> start_ok mutables s0 -> Forall (search_move s0) ms ->
  incl (keys (md_obj (ms_model s0))) variables -> (n <= 0)%Z ->
  let s := fst (search md mutables (preprocess s0 lo hi) ms) in
  optimal_or_no_move gap n variables s = Some Optimal ->
  (forall c, In c (md_cons (ms_model (ss_ms s))) -> ct_enabled c = true -> viol c (ms_x (ss_ms s)) < EPS) /\
  forall y, reachable s y -> cost s (ms_x (ss_ms s)) <= cost s y.
Proof.
  intros Hm St F Hv Hn. cbv zeta. intros H.
  destruct (search_sinv md mutables s0 lo hi ms St F) as ((G & Ob & _) & S & W). cbv zeta in *.
  set (s := fst (search md mutables (preprocess s0 lo hi) ms)) in *.
  unfold optimal_or_no_move in H. destruct (Z.ltb_spec 0 n); [lia|].
  destruct (ms_feasible (ss_ms s)) eqn:Ef; [|discriminate].
  split; [now apply (good_feasible _ G)|].
  destruct (existsb (ss_obj s) variables) eqn:Ex; [discriminate|].
  intros y R. unfold cost. rewrite !eval_lin, !Qmult_plus_distr_r.
  assert (K : md_sign (ms_model (ss_ms s)) * lin (ex_sens (md_obj (ms_model (ss_ms s)))) (ms_x (ss_ms s)) <=
              md_sign (ms_model (ss_ms s)) * lin (ex_sens (md_obj (ms_model (ss_ms s)))) y); [|lra].
  apply corner_optimal; [|exact R]. intros v a Hin Fx.
  assert (Ek : In v (keys (md_obj (ms_model s0)))).
  { destruct S as (_ & _ & S3 & _). rewrite <- S3. apply in_map_iff. exists (v, a). auto. }
  assert (Hmut : In v mutables). { apply St; [exact Ek|]. destruct S as (_ & _ & _ & _ & S5 & _). now rewrite <- S5. }
  assert (Hflag : ss_obj s v = false).
  { destruct (ss_obj s v) eqn:E; [|reflexivity]. assert (existsb (ss_obj s) variables = true) by (apply existsb_exists; exists v; split; [now apply Hv|exact E]). congruence. }
  rewrite (Ob Hm v Hmut) in Hflag. unfold objective_improvable in Hflag.
  assert (Es : objective_sensitivity s v = a).
  { unfold objective_sensitivity. destruct W as (_ & W & _). now rewrite (in_find _ _ _ W Hin). }
  now rewrite Es in Hflag.
Qed.

(** ** Naive dual bound *)
Lemma naive_lower obj vs : naive_dual_bound true obj vs == e_lower obj (vi_of vs).
Proof.
  unfold naive_dual_bound, e_lower.
  assert (K : forall q a b, a == b ->
    fold_left (fun acc (p : nat * Q) => if va_fixed (vs (fst p)) then acc + inject_Z (va_value (vs (fst p))) * snd p
      else if Bool.eqb true (qpos (snd p)) then acc + inject_Z (va_lower (vs (fst p))) * snd p
      else acc + inject_Z (va_upper (vs (fst p))) * snd p) q a ==
    fold_left (fun acc (p : nat * Q) => let i := vi_of vs (fst p) in if vi_fixed i then acc + snd p * inject_Z (vi_value i)
      else acc + snd p * inject_Z (if Qlt_le_dec 0 (snd p) then vi_lower i else vi_upper i)) q b).
  { induction q as [|[v c] q IH]; intros a b E; cbn [fold_left fst snd]; [exact E|]. apply IH. cbv zeta. unfold vi_of at 1. cbn [vi_fixed vi_value vi_of vi_lower vi_upper].
    unfold qpos. destruct (va_fixed (vs v)); [lra|]. destruct (Qlt_le_dec 0 c); cbn [Bool.eqb]; lra. }
  apply K. reflexivity.
Qed.
Lemma naive_upper obj vs : naive_dual_bound false obj vs == e_upper obj (vi_of vs).
Proof.
  unfold naive_dual_bound, e_upper.
  assert (K : forall q a b, a == b ->
    fold_left (fun acc (p : nat * Q) => if va_fixed (vs (fst p)) then acc + inject_Z (va_value (vs (fst p))) * snd p
      else if Bool.eqb false (qpos (snd p)) then acc + inject_Z (va_lower (vs (fst p))) * snd p
      else acc + inject_Z (va_upper (vs (fst p))) * snd p) q a ==
    fold_left (fun acc (p : nat * Q) => let i := vi_of vs (fst p) in if vi_fixed i then acc + snd p * inject_Z (vi_value i)
      else acc + snd p * inject_Z (if Qlt_le_dec 0 (snd p) then vi_upper i else vi_lower i)) q b).
  { induction q as [|[v c] q IH]; intros a b E; cbn [fold_left fst snd]; [exact E|]. apply IH. cbv zeta. unfold vi_of at 1. cbn [vi_fixed vi_value vi_of vi_lower vi_upper].
    unfold qpos. destruct (va_fixed (vs v)); [lra|]. destruct (Qlt_le_dec 0 c); cbn [Bool.eqb]; lra. }
  apply K. reflexivity.
Qed.
Lemma naive_bound obj vs : (forall y, admissible (vi_of vs) y ->
    naive_dual_bound true obj vs <= e_eval obj y /\ e_eval obj y <= naive_dual_bound false obj vs) /\
  (wf obj -> (forall v, va_fixed (vs v) = false -> (va_lower (vs v) <= va_upper (vs v))%Z) ->
   (exists y, admissible (vi_of vs) y /\ e_eval obj y == naive_dual_bound true obj vs) /\
   (exists y, admissible (vi_of vs) y /\ e_eval obj y == naive_dual_bound false obj vs)).
Proof.
  split.
  - intros y H. rewrite naive_lower, naive_upper. split; [now apply lower_bound_valid|now apply upper_bound_valid].
  - intros W B. destruct (bounds_attained obj (vi_of vs) W B) as [(y & H1 & H2) (z & H3 & H4)]. split.
    + exists y. split; [exact H1|]. now rewrite naive_lower.
    + exists z. split; [exact H3|]. now rewrite naive_upper.
Qed.
Lemma gap_claim f obj vs n variables s : (0 < n)%Z ->
  optimal_or_no_move (Some (Some f, naive_dual_bound true obj vs)) n variables s = Some Optimal ->
  forall y, admissible (vi_of vs) y -> f < e_eval obj y + EPS.
Proof.
  intros Hn. unfold optimal_or_no_move. destruct (Z.ltb_spec 0 n); [|lia].
  destruct (Qlt_le_dec (Qabs (f - naive_dual_bound true obj vs)) EPS) as [L|L]; [|discriminate].
  intros _ y Hy. destruct (proj1 (naive_bound obj vs) y Hy) as [K _].
  apply Qabs_Qlt_condition in L. lra.
Qed.
