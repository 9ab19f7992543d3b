(** Proofs for C59: the whole update. *)
From Coq Require Import List ZArith QArith Qabs Qround Lia Lqa Bool.
From Verif Require Import ExprModel ConstraintModel EvalModel EvalSpec SolutionModel TabuModel ControllerModel ControllerSpec ControllerProof ControllerProof2.
Import ListNotations.
Local Open Scope Q_scope.

(** One update, taken apart. *)
Definition broken (o : copt) (breaker : bool) (fl0 : flags) : flags :=
  if co_inner_breaker o && fl_tighten fl0 && breaker
  then mkFl (fl_local fl0) true (fl_previous fl0) (fl_tighten fl0) (fl_relax fl0) true true else fl0.
Definition decided (o : copt) (g none small feasible narrow found improved : bool) : flags :=
  if co_smart o then decide_smart g none small feasible narrow found improved else decide_simple g none feasible narrow.
Definition start_of (fl : flags) (yg yl previous : nat -> Z) : option (nat -> Z) :=
  if fl_global fl then Some yg else if fl_local fl then Some yl else if fl_previous fl then Some previous else None.
Definition pens_of (fl : flags) (o : copt) (lg : Z -> Q) (count : nat -> Z) (yl : nat -> Z) (gap rate : Q) (md : model) (ex : bool) : option (list constr * bool) :=
  if fl_reset fl then Some (reset_penalties md, ex)
  else if fl_tighten fl then tighten_penalties o lg count yl gap (md_cons md)
  else if fl_relax fl then Some (relax_penalties rate yl md, ex)
  else Some (md_cons md, ex).
Definition raw_improved (md : model) (yl previous : nat -> Z) : bool :=
  (if Qlt_le_dec (raw_objective md yl) (raw_objective md previous) then true else false)
  || (if Qlt_le_dec (raw_total md yl) (raw_total md previous) then true else false).

Lemma k_update_parts o lg root r h m nmut draw md k qg yg ql yl feasible :
  incumbents h qg yg ql yl feasible ->
  exists outer inner crowded rising,
  let g := Z.testbit (rr_status r) 1 in
  let none := (rr_status r =? 0)%Z in
  let small := if Qlt_le_dec (qg - ql) GAP_TOLERANCE then true else false in
  let narrow := if Qlt_le_dec (rr_range r / qmax 1 (Qabs qg)) RANGE_THRESHOLD then true else false in
  let fl0 := decided o g none small feasible narrow (ho_found h) (raw_improved md yl (k_current k)) in
  let fl := broken o (outer && inner) fl0 in
  let rate := if co_outer_breaker o && fl_relax fl0 then next_rate o root outer crowded (Z.testbit (rr_status r) 2) k else k_rate k in
  let res := k_update o lg root r h m nmut draw md k in
  let pens := pens_of fl o lg (mm_vcount m) yl (qg - ql) (relax_rate rate (rr_rate r) feasible) md (k_exceeded k) in
  let tenure := if co_auto_tenure o then next_tenure o g none (rr_tenure r) nmut rising (k_tenure k) else k_tenure k in
  (outer = true -> ho_found h = false) /\
  match res with
  | None => pens = None
  | Some (k', cs') =>
      pens = Some (cs', k_exceeded k') /\ start_of fl yg yl (k_current k) = Some (k_current k') /\ k_rate k' = rate /\ k_tenure k' = tenure /\
      k_modifications k' = (if co_modify o then next_modifications o g (fl_modify fl) tenure draw else k_modifications k) /\
      k_iteration_max k' = (if co_auto_iteration o then next_iteration_max o g r (k_iteration_max k) else k_iteration_max k)
  end.
Proof.
  intros (sg & sl & Eg & El & Ef). unfold k_update. rewrite Eg, El. cbn [sl_obj sl_stored]. rewrite Ef.
  set (outer := negb (ho_found h) && _). set (improved := _ || _).
  set (inner := (k_exceeded k || negb improved) && _). set (crowded := (if Qlt_le_dec (k_primal_relaxed k) (mm_primal m) then true else false) && _).
  set (rising := (if Qlt_le_dec (k_primal k) (mm_primal m) then true else false) || _).
  exists outer, inner, crowded, rising. cbv zeta. fold (raw_improved md yl (k_current k)) in improved.
  set (g := Z.testbit (rr_status r) 1). set (none := (rr_status r =? 0)%Z). set (small := if Qlt_le_dec (qg - ql) GAP_TOLERANCE then true else false).
  set (narrow := if Qlt_le_dec (rr_range r / qmax 1 (Qabs qg)) RANGE_THRESHOLD then true else false).
  split; [unfold outer; destruct (ho_found h); [discriminate|reflexivity]|].
  fold (decided o g none small feasible narrow (ho_found h) improved). unfold improved.
  set (fl0 := decided o g none small feasible narrow (ho_found h) (raw_improved md yl (k_current k))).
  fold (broken o (outer && inner) fl0). set (fl := broken o (outer && inner) fl0).
  match goal with |- context [pens_of fl o lg (mm_vcount m) yl (qg - ql) ?rt md (k_exceeded k)] => set (rate := rt) end.
  fold (pens_of fl o lg (mm_vcount m) yl (qg - ql) rate md (k_exceeded k)). fold (start_of fl yg yl (k_current k)).
  assert (ST : exists x, start_of fl yg yl (k_current k) = Some x).
  { unfold start_of, fl, broken, fl0, decided, decide_smart, decide_simple. destruct (co_smart o), g, none, small, feasible, narrow, (ho_found h), (raw_improved md yl (k_current k)), (co_inner_breaker o), (outer && inner); cbn; eexists; reflexivity. }
  destruct (pens_of fl o lg (mm_vcount m) yl (qg - ql) rate md (k_exceeded k)) as [[cs' ex]|]; [|reflexivity].
  destruct ST as (x & ST). rewrite ST. destruct (fl_relax fl); cbn [k_current k_rate k_tenure k_modifications k_iteration_max k_exceeded]; (split; [reflexivity|]; repeat split).
Qed.

(** ** Penalties *)
Lemma reset_facts md cap : 0 <= md_gpen md <= cap ->
  Forall2 repriced (md_cons md) (reset_penalties md) /\ Forall2 (priced_at (md_gpen md)) (md_cons md) (reset_penalties md) /\ Forall (priced_within cap) (reset_penalties md).
Proof.
  intros G. unfold reset_penalties. split; [apply forall2_map; intros; apply with_pen_repriced|]. split; [apply forall2_map; intros; split; reflexivity|].
  apply Forall_forall. intros c' H. apply in_map_iff in H as (c & <- & _). unfold priced_within. cbn. split; exact G.
Qed.
Lemma next_rate_range o root outer crowded f k : sensible o -> root_like root -> co_relax_min o <= k_rate k <= co_relax_max o ->
  co_relax_min o <= next_rate o root outer crowded f k <= co_relax_max o.
Proof.
  intros (S1 & S2 & S3 & S4 & S5 & S6 & S7 & (S8 & S9) & (S10 & S11)) R [K1 K2]. unfold next_rate. destruct (outer && crowded).
  - assert (k_rate k * co_relax_dec o <= k_rate k) by nra. pose proof (qmax_ge_l (co_relax_min o) (k_rate k * co_relax_dec o)).
    split; [assumption|]. apply qmax_lub; lra.
  - destruct f; [lra|]. destruct (Z.max (k_n_local k) (k_n_global k) <? k_n_previous k)%Z.
    + destruct (R (k_rate k)) as [R1 R2]; [lra|lra|]. split; [apply qmin_glb; lra|apply qmin_le_l].
    + assert (0 <= co_relax_inc o * (k_rate k - co_relax_min o)) by (apply Qmult_le_0_compat; lra).
      assert (0 <= (1 - co_relax_inc o) * (k_rate k - co_relax_min o)) by (apply Qmult_le_0_compat; lra).
      assert (0 <= (1 - co_relax_inc o) * (co_relax_max o - k_rate k)) by (apply Qmult_le_0_compat; lra).
      assert (0 <= co_relax_inc o * (co_relax_max o - co_relax o)) by (apply Qmult_le_0_compat; lra).
      assert (0 <= co_relax_inc o * (co_relax o - co_relax_min o)) by (apply Qmult_le_0_compat; lra). split; lra.
Qed.
Lemma not_dearer_refl cs : Forall2 not_dearer cs cs.
Proof. induction cs; constructor; [split; lra|assumption]. Qed.
Lemma repriced_refl cs : Forall2 repriced cs cs.
Proof. induction cs; constructor; [repeat split|assumption]. Qed.

Section Update.
Variables (o : copt) (lg : Z -> Q) (root : Q -> Q) (r : rres) (h : holder (nat -> Z)) (m : memory) (nmut draw : Z) (md : model) (k : ctl).
Variables (qg : Q) (yg : nat -> Z) (ql : Q) (yl : nat -> Z) (feasible : bool).
Hypothesis (INC : incumbents h qg yg ql yl feasible).

Lemma update_pens k' cs' : sensible o -> log_like lg -> root_like root -> counted (mm_vcount m) (md_cons md) ->
  0 <= md_gpen md <= co_initial o -> co_relax_min o <= k_rate k <= co_relax_max o -> Forall (priced_within (co_initial o)) (md_cons md) ->
  k_update o lg root r h m nmut draw md k = Some (k', cs') ->
  Forall2 repriced (md_cons md) cs' /\ Forall (priced_within (co_initial o)) cs' /\ co_relax_min o <= k_rate k' <= co_relax_max o /\
  (feasible = true -> Forall2 not_dearer (md_cons md) cs') /\
  (Forall2 not_dearer (md_cons md) cs' \/ Forall2 not_cheaper (md_cons md) cs' \/ (ho_found h = false /\ Forall2 (priced_at (md_gpen md)) (md_cons md) cs')).
Proof.
  intros S L R C G K P U.
  destruct (k_update_parts o lg root r h m nmut draw md k qg yg ql yl feasible INC) as (outer & inner & crowded & rising & X). cbv zeta in X.
  rewrite U in X. destruct X as (O & X & _ & Xr & _).
  set (small := if Qlt_le_dec (qg - ql) GAP_TOLERANCE then true else false) in *.
  set (narrow := if Qlt_le_dec (rr_range r / qmax 1 (Qabs qg)) RANGE_THRESHOLD then true else false) in *.
  set (fl0 := decided o (Z.testbit (rr_status r) 1) (rr_status r =? 0)%Z small feasible narrow (ho_found h) (raw_improved md yl (k_current k))) in *.
  match type of X with pens_of _ _ _ _ _ _ (relax_rate ?t _ _) _ _ = _ => set (rate := t) in * end.
  assert (HR : co_relax_min o <= rate <= co_relax_max o).
  { unfold rate. destruct (co_outer_breaker o && fl_relax fl0); [apply next_rate_range; assumption|exact K]. }
  assert (HR1 : 0 <= rate <= 1) by (destruct S as (_ & _ & _ & S4 & _ & _ & S7 & _); lra).
  pose proof (relax_rate_range rate (rr_rate r) feasible HR1) as HR2.
  destruct (relax_facts (relax_rate rate (rr_rate r) feasible) yl (md_cons md) (co_initial o) HR2 P) as (F1 & F2 & F3).
  destruct (reset_facts md (co_initial o) G) as (R1 & R2 & R3).
  assert (T0 : feasible = true -> fl_tighten fl0 = false).
  { intros ->. unfold fl0, decided, decide_smart, decide_simple. destruct (co_smart o), (Z.testbit (rr_status r) 1), (rr_status r =? 0)%Z, small, narrow; reflexivity. }
  assert (RS0 : fl_reset fl0 = false).
  { unfold fl0, decided, decide_smart, decide_simple. destruct (co_smart o), (Z.testbit (rr_status r) 1), (rr_status r =? 0)%Z, small, feasible, narrow, (ho_found h), (raw_improved md yl (k_current k)); reflexivity. }
  assert (Q : Forall2 repriced (md_cons md) cs' /\ Forall (priced_within (co_initial o)) cs' /\
    (feasible = true -> Forall2 not_dearer (md_cons md) cs') /\
    (Forall2 not_dearer (md_cons md) cs' \/ Forall2 not_cheaper (md_cons md) cs' \/ (ho_found h = false /\ Forall2 (priced_at (md_gpen md)) (md_cons md) cs'))).
  { unfold pens_of, broken in X. destruct (co_inner_breaker o && fl_tighten fl0 && (outer && inner)) eqn:EB; cbn [fl_reset] in X.
    - assert (E : cs' = reset_penalties md) by congruence. rewrite E. split; [exact R1|]. split; [exact R3|]. split.
      + intros Hf. rewrite (T0 Hf), andb_false_r in EB. discriminate.
      + right. right. split; [|exact R2]. apply O. destruct outer; [reflexivity|]. rewrite andb_comm in EB. discriminate.
    - rewrite RS0 in X. destruct (fl_tighten fl0) eqn:ET.
      + destruct (tighten_facts o lg (mm_vcount m) yl (qg - ql) (md_cons md) cs' (k_exceeded k') S L C P X) as (A1 & A2 & A3).
        split; [exact A1|]. split; [exact A3|]. split; [intros Hf; specialize (T0 Hf); discriminate|]. right. now left.
      + destruct (fl_relax fl0).
        * unfold relax_penalties in X. assert (E : cs' = map (relax_one (relax_rate rate (rr_rate r) feasible) yl) (md_cons md)) by congruence. rewrite E.
          split; [exact F1|]. split; [exact F3|]. split; [intros _; exact F2|]. now left.
        * assert (E : cs' = md_cons md) by congruence. rewrite E. pose proof (not_dearer_refl (md_cons md)). pose proof (repriced_refl (md_cons md)). tauto. }
  rewrite Xr. tauto.
Qed.

(** The update fails only where a coefficient is not a number. *)
Lemma update_none : log_like lg -> counted (mm_vcount m) (md_cons md) -> k_update o lg root r h m nmut draw md k = None ->
  feasible = false /\ (exists c, In c (md_cons md) /\ EPS < viol c yl) /\
  forall i c, nth_error (md_cons md) i = Some c -> 0 < viol c yl -> mm_vcount m i = 0%Z.
Proof.
  intros L C U.
  destruct (k_update_parts o lg root r h m nmut draw md k qg yg ql yl feasible INC) as (outer & inner & crowded & rising & X). cbv zeta in X.
  rewrite U in X. destruct X as (_ & X). unfold pens_of in X.
  match type of X with (if fl_reset ?f then _ else _) = _ => destruct (fl_reset f); [discriminate|]; destruct (fl_tighten f) eqn:ET; [|destruct (fl_relax f); discriminate] end.
  split; [|exact (tighten_none o lg _ _ _ _ L C X)]. destruct feasible; [|reflexivity]. exfalso. revert ET. clear.
  unfold broken, decided, decide_smart, decide_simple.
  destruct (co_smart o), (Z.testbit (rr_status r) 1), (rr_status r =? 0)%Z, (if Qlt_le_dec (qg - ql) GAP_TOLERANCE then true else false), (if Qlt_le_dec (rr_range r / qmax 1 (Qabs qg)) RANGE_THRESHOLD then true else false); cbn; rewrite andb_false_r; discriminate.
Qed.

(** ** The next start *)
Lemma update_start_smart k' cs' : co_smart o = true -> k_update o lg root r h m nmut draw md k = Some (k', cs') ->
  let g := Z.testbit (rr_status r) 1 in
  let forced := co_modify o = true -> (1 <= k_modifications k')%Z in
  let calm := co_modify o = true -> k_modifications k' = 0%Z in
  (g = true -> k_current k' = yg /\ calm) /\
  (g = false -> rr_status r = 0%Z -> k_current k' = yg /\ forced) /\
  (g = false -> rr_status r <> 0%Z -> qg - ql < EPS -> k_current k' = yg /\ forced) /\
  (g = false -> rr_status r <> 0%Z -> EPS <= qg - ql -> feasible = true -> k_current k' = yl /\ calm) /\
  (g = false -> rr_status r <> 0%Z -> EPS <= qg - ql -> feasible = false ->
     (rr_range r / qmax 1 (Qabs qg) < 1 # 100 -> k_current k' = yg /\ forced) /\
     (~ rr_range r / qmax 1 (Qabs qg) < 1 # 100 -> ho_found h = false -> (k_current k' = yl \/ k_current k' = yg) /\ forced) /\
     (~ rr_range r / qmax 1 (Qabs qg) < 1 # 100 -> ho_found h = true ->
        (raw_objective md yl < raw_objective md (k_current k) \/ raw_total md yl < raw_total md (k_current k) -> k_current k' = yl /\ calm) /\
        (~ (raw_objective md yl < raw_objective md (k_current k) \/ raw_total md yl < raw_total md (k_current k)) -> k_current k' = k_current k /\ calm))).
Proof.
  intros Sm U. cbv zeta.
  destruct (k_update_parts o lg root r h m nmut draw md k qg yg ql yl feasible INC) as (outer & inner & crowded & rising & X). cbv zeta in X.
  rewrite U in X. destruct X as (O & _ & Xs & _ & _ & Xm & _). unfold start_of in Xs. unfold decided in *. rewrite Sm in *.
  match type of Xm with context [next_modifications o _ _ ?t draw] => set (tenure := t) in * end.
  assert (M0 : forall g, next_modifications o g false tenure draw = 0%Z) by (intros []; reflexivity).
  assert (M1 : (1 <= next_modifications o false true tenure draw)%Z) by (unfold next_modifications; cbn [negb]; apply Z.le_max_l).
  assert (M2 : next_modifications o true true tenure draw = 0%Z) by reflexivity.
  set (g := Z.testbit (rr_status r) 1) in *. clearbody tenure.
  assert (RI : raw_improved md yl (k_current k) = true <-> raw_objective md yl < raw_objective md (k_current k) \/ raw_total md yl < raw_total md (k_current k)).
  { unfold raw_improved. destruct (Qlt_le_dec (raw_objective md yl) _); destruct (Qlt_le_dec (raw_total md yl) _); cbn; intuition (try discriminate; try lra). }
  unfold GAP_TOLERANCE in *. unfold RANGE_THRESHOLD in *.
  destruct g.
  { unfold decide_smart, broken in *. cbn [fl_tighten] in *. rewrite andb_false_r in *. cbn [andb] in *. cbn [fl_global fl_local fl_previous fl_modify] in Xs, Xm.
    split; [|repeat split; discriminate]. intros _. split; [congruence|]. intros Hm. rewrite Hm in Xm. now rewrite M0 in Xm. }
  split; [discriminate|]. unfold decide_smart in *. cbn [fl_tighten] in *.
  destruct (Z.eqb_spec (rr_status r) 0) as [E0|E0].
  { unfold broken in *. cbn [fl_tighten] in *. rewrite andb_false_r in *. cbn [andb] in *. cbn [fl_global fl_local fl_previous fl_modify] in Xs, Xm.
    split; [|repeat split; contradiction]. intros _ _. split; [congruence|]. intros Hm. rewrite Hm in Xm. lia. }
  split; [contradiction|].
  destruct (Qlt_le_dec (qg - ql) EPS) as [Q1|Q1].
  { split; [|split; intros; exfalso; lra]. intros _ _ _. unfold broken in *. destruct feasible; cbn [fl_tighten] in *.
    - rewrite andb_false_r in *. cbn [andb] in *. cbn [fl_global fl_local fl_previous fl_modify] in Xs, Xm. split; [congruence|]. intros Hm. rewrite Hm in Xm. lia.
    - rewrite andb_true_r in *. destruct (co_inner_breaker o && (outer && inner)); cbn [fl_global fl_local fl_previous fl_modify] in Xs, Xm; (split; [congruence|]; intros Hm; rewrite Hm in Xm; lia). }
  split; [intros; exfalso; lra|].
  destruct feasible.
  { unfold broken in *. cbn [fl_tighten] in *. rewrite andb_false_r in *. cbn [andb] in *. cbn [fl_global fl_local fl_previous fl_modify] in Xs, Xm.
    split; [|intros; discriminate]. intros _ _ _ _. split; [congruence|]. intros Hm. rewrite Hm, M0 in Xm. exact Xm. }
  split; [intros; discriminate|]. intros _ _ _ _.
  destruct (Qlt_le_dec (rr_range r / qmax 1 (Qabs qg)) (1 # 100)) as [N|N].
  { unfold broken in *. cbn [fl_tighten] in *. rewrite andb_false_r in *. cbn [andb] in *. cbn [fl_global fl_local fl_previous fl_modify] in Xs, Xm.
    split; [|split; intros; contradiction]. intros _. split; [congruence|]. intros Hm. rewrite Hm in Xm. lia. }
  split; [intros; exfalso; lra|].
  destruct (ho_found h) eqn:EF.
  - split; [intros; discriminate|]. intros _ _. assert (Eo : outer = false) by (destruct outer; [specialize (O eq_refl); discriminate|reflexivity]). rewrite Eo in *. unfold broken in *. cbn [andb] in *. rewrite andb_false_r in *.
    destruct (raw_improved md yl (k_current k)) eqn:EI; cbn [fl_global fl_local fl_previous fl_modify] in Xs, Xm.
    + split; [intros _; split; [congruence|intros Hm; rewrite Hm, M0 in Xm; exact Xm]|]. intros N1. exfalso. apply N1. now apply RI.
    + split; [intros N1; apply RI in N1; discriminate|]. intros _. split; [congruence|]. intros Hm. rewrite Hm, M0 in Xm. exact Xm.
  - split; [|intros; discriminate]. intros _ _. unfold broken in *. cbn [fl_tighten] in *. rewrite andb_true_r in *.
    destruct (co_inner_breaker o && (outer && inner)); cbn [fl_global fl_local fl_previous fl_modify] in Xs, Xm; (split; [|intros Hm; rewrite Hm in Xm; lia]).
    + right. congruence.
    + left. congruence.
Qed.
Lemma update_start_simple k' cs' : co_smart o = false -> k_update o lg root r h m nmut draw md k = Some (k', cs') ->
  k_current k' = yl \/ (k_current k' = yg /\ ho_found h = false /\ feasible = false).
Proof.
  intros Sm U.
  destruct (k_update_parts o lg root r h m nmut draw md k qg yg ql yl feasible INC) as (outer & inner & crowded & rising & X). cbv zeta in X.
  rewrite U in X. destruct X as (O & _ & Xs & _). unfold decided in *. rewrite Sm in *. unfold decide_simple, broken in *.
  destruct (_ || _) eqn:E1; cbn [fl_tighten fl_local fl_previous fl_relax] in *.
  - rewrite andb_false_r in Xs. cbn in Xs. left. congruence.
  - rewrite andb_true_r in Xs. destruct (co_inner_breaker o && (outer && inner)) eqn:E2; cbn in Xs; [|left; congruence].
    right. split; [congruence|]. split; [apply O; destruct outer; [reflexivity|]; rewrite andb_comm in E2; discriminate|].
    destruct feasible; [|reflexivity]. rewrite orb_true_r in E1. discriminate.
Qed.
Lemma update_start k' cs' : k_update o lg root r h m nmut draw md k = Some (k', cs') ->
  k_current k' = yg \/ k_current k' = yl \/ k_current k' = k_current k.
Proof.
  intros U. destruct (k_update_parts o lg root r h m nmut draw md k qg yg ql yl feasible INC) as (outer & inner & crowded & rising & X). cbv zeta in X.
  rewrite U in X. destruct X as (O & _ & Xs & _). unfold start_of in Xs.
  match type of Xs with (if fl_global ?f then _ else _) = _ => destruct (fl_global f); [left; congruence|]; destruct (fl_local f); [right; left; congruence|]; destruct (fl_previous f); [right; right; congruence|discriminate] end.
Qed.

(** ** Parameters *)
Lemma update_parameters k' cs' : (0 <= nmut)%Z -> k_update o lg root r h m nmut draw md k = Some (k', cs') ->
  ((Z.min (co_tenure o) nmut <= k_tenure k <= Z.max (co_tenure o) nmut)%Z -> (Z.min (co_tenure o) nmut <= k_tenure k' <= Z.max (co_tenure o) nmut)%Z) /\
  (co_auto_tenure o = true -> Z.testbit (rr_status r) 1 = true -> k_tenure k' = Z.min (co_tenure o) nmut) /\
  ((Z.min (co_tenure o) (co_iteration_max o) <= k_iteration_max k <= Z.max (co_tenure o) (co_iteration_max o))%Z ->
   (Z.min (co_tenure o) (co_iteration_max o) <= k_iteration_max k' <= Z.max (co_tenure o) (co_iteration_max o))%Z) /\
  ((0 <= k_modifications k)%Z -> (0 <= k_modifications k')%Z).
Proof.
  intros N U. destruct (k_update_parts o lg root r h m nmut draw md k qg yg ql yl feasible INC) as (outer & inner & crowded & rising & X). cbv zeta in X.
  rewrite U in X. destruct X as (_ & _ & _ & _ & Xt & Xm & Xi).
  split; [|split; [|split]].
  - intros B. rewrite Xt. destruct (co_auto_tenure o); [|exact B]. unfold next_tenure. destruct (Z.testbit (rr_status r) 1); [lia|]. destruct (rr_status r =? 0)%Z; [lia|].
    destruct (Z.ltb_spec (k_tenure k) (rr_tenure r)); [lia|]. destruct (_ && rising); lia.
  - intros A B. rewrite Xt, A, B. reflexivity.
  - intros B. rewrite Xi. destruct (co_auto_iteration o); [|exact B]. unfold next_iteration_max. destruct (negb _); [exact B|]. lia.
  - intros B. rewrite Xm. destruct (co_modify o); [|exact B]. unfold next_modifications. destruct (Z.testbit (rr_status r) 1); [lia|]. destruct (negb _); [lia|]. lia.
Qed.

(** Which coefficients change. *)
Lemma relax_one_relaxed f y c : relaxed f y c (relax_one f y c).
Proof.
  unfold relaxed, relax_one. cbn [c_with_pen ct_pen_less ct_pen_greater]. assert (Ep : 0 < EPS) by reflexivity.
  set (v := e_eval (ct_expr c) y).
  assert (A : above c y == qmax v 0) by (unfold above, qmax; fold v; destruct (Qlt_le_dec 0 v); destruct (Qlt_le_dec v 0); lra).
  assert (B : below c y == qmax (- v) 0) by (unfold below, qmax; fold v; destruct (Qlt_le_dec v 0); destruct (Qlt_le_dec (- v) 0); lra).
  unfold ct_le, ct_ge, bounds_above, bounds_below.
  destruct (Qlt_le_dec (qmax v 0) EPS); destruct (Qlt_le_dec (qmax (- v) 0) EPS); destruct (ct_sense c); cbn [andb];
  repeat split; intros; try reflexivity; try discriminate; exfalso; try lra; intuition (try congruence; try lra).
Qed.
Lemma update_relaxes k' cs' : Z.testbit (rr_status r) 1 = true \/ rr_status r = 0%Z \/ feasible = true ->
  k_update o lg root r h m nmut draw md k = Some (k', cs') ->
  exists f, f <= k_rate k' /\ (0 < k_rate k' -> 0 < f) /\ (feasible = false \/ rr_rate r <= EPS -> f = k_rate k') /\
    (feasible = true -> EPS < rr_rate r -> f <= rr_rate r /\ (f = rr_rate r \/ f = k_rate k')) /\ Forall2 (relaxed f yl) (md_cons md) cs'.
Proof.
  intros H U. destruct (k_update_parts o lg root r h m nmut draw md k qg yg ql yl feasible INC) as (outer & inner & crowded & rising & X). cbv zeta in X.
  rewrite U in X. destruct X as (_ & X & _ & Xr & _). rewrite <- Xr in X.
  assert (F : fl_tighten (decided o (Z.testbit (rr_status r) 1) (rr_status r =? 0)%Z (if Qlt_le_dec (qg - ql) GAP_TOLERANCE then true else false) feasible
    (if Qlt_le_dec (rr_range r / qmax 1 (Qabs qg)) RANGE_THRESHOLD then true else false) (ho_found h) (raw_improved md yl (k_current k))) = false /\
    fl_relax (decided o (Z.testbit (rr_status r) 1) (rr_status r =? 0)%Z (if Qlt_le_dec (qg - ql) GAP_TOLERANCE then true else false) feasible
    (if Qlt_le_dec (rr_range r / qmax 1 (Qabs qg)) RANGE_THRESHOLD then true else false) (ho_found h) (raw_improved md yl (k_current k))) = true /\
    fl_reset (decided o (Z.testbit (rr_status r) 1) (rr_status r =? 0)%Z (if Qlt_le_dec (qg - ql) GAP_TOLERANCE then true else false) feasible
    (if Qlt_le_dec (rr_range r / qmax 1 (Qabs qg)) RANGE_THRESHOLD then true else false) (ho_found h) (raw_improved md yl (k_current k))) = false).
  { assert (H' : Z.testbit (rr_status r) 1 || (rr_status r =? 0)%Z || feasible = true).
    { destruct H as [->|[->| ->]]; [reflexivity|now rewrite orb_true_r|apply orb_true_r]. }
    revert H'. unfold decided, decide_smart, decide_simple. clear.
    destruct (co_smart o), (Z.testbit (rr_status r) 1), (rr_status r =? 0)%Z, (if Qlt_le_dec (qg - ql) GAP_TOLERANCE then true else false), feasible,
      (if Qlt_le_dec (rr_range r / qmax 1 (Qabs qg)) RANGE_THRESHOLD then true else false); cbn; try discriminate; repeat split. }
  destruct F as (F1 & F2 & F3). unfold broken in X. rewrite F1, andb_false_r in X. cbn [andb] in X. unfold pens_of in X. rewrite F1, F2, F3 in X.
  exists (relax_rate (k_rate k') (rr_rate r) feasible).
  split; [unfold relax_rate; destruct (_ && feasible); [apply qmin_le_l|lra]|]. split; [|split; [|split]].
  - intros P. unfold relax_rate. destruct (Qlt_le_dec EPS (rr_rate r)) as [L|L]; cbn [andb]; [|exact P]. destruct feasible; [|exact P].
    assert (0 < EPS) by reflexivity. unfold qmin. destruct (Qlt_le_dec (rr_rate r) (k_rate k')); lra.
  - intros [E|E]; unfold relax_rate; [rewrite E, andb_false_r; reflexivity|]. destruct (Qlt_le_dec EPS (rr_rate r)) as [L|L]; [exfalso; lra|reflexivity].
  - intros -> L. unfold relax_rate. destruct (Qlt_le_dec EPS (rr_rate r)) as [_|L']; [|exfalso; lra]. cbn [andb]. unfold qmin.
    destruct (Qlt_le_dec (rr_rate r) (k_rate k')) as [A|A]; (split; [lra|auto]).
  - unfold relax_penalties in X. assert (E : cs' = map (relax_one (relax_rate (k_rate k') (rr_rate r) feasible) yl) (md_cons md)) by congruence. rewrite E.
    apply forall2_map. intros. apply relax_one_relaxed.
Qed.
(** Where the coefficients are tightened. *)
Lemma update_tightens k' cs' : Z.testbit (rr_status r) 1 = false -> rr_status r <> 0%Z -> feasible = false ->
  ~ rr_range r / qmax 1 (Qabs qg) < 1 # 100 -> ho_found h = true \/ co_inner_breaker o = false ->
  k_update o lg root r h m nmut draw md k = Some (k', cs') ->
  tighten_penalties o lg (mm_vcount m) yl (qg - ql) (md_cons md) = Some (cs', k_exceeded k').
Proof.
  intros H1 H2 H3 H4 H5 U. destruct (k_update_parts o lg root r h m nmut draw md k qg yg ql yl feasible INC) as (outer & inner & crowded & rising & X). cbv zeta in X.
  rewrite U in X. destruct X as (O & X & _). rewrite <- X. unfold RANGE_THRESHOLD. rewrite H1, H3 in *. apply Z.eqb_neq in H2. rewrite H2.
  destruct (Qlt_le_dec (rr_range r / qmax 1 (Qabs qg)) (1 # 100)) as [N|N]; [contradiction|].
  assert (E : co_inner_breaker o && true && (outer && inner) = false).
  { destruct H5 as [H5|H5]; [|now rewrite H5]. destruct outer; [specialize (O eq_refl); congruence|]. cbn. now rewrite andb_false_r. }
  unfold pens_of, broken, decided, decide_smart, decide_simple. cbn [orb].
  destruct (co_smart o), (if Qlt_le_dec (qg - ql) GAP_TOLERANCE then true else false), (ho_found h), (raw_improved md yl (k_current k)); cbn [fl_tighten]; rewrite E; reflexivity.
Qed.
End Update.

Lemma tighten_one_tightened o lg count y gap tv ts i c c' : sensible o -> 0 <= lg (count i) -> 0 <= tv -> 0 <= ts ->
  tighten_one o lg count y gap tv ts (i, c) = Some c' -> tightened y c c'.
Proof.
  intros S L Tv Ts H. destruct (tighten_one_facts o lg count y gap tv ts i c c' S L Tv Ts H) as [_ [N1 N2]]. unfold tightened. split; [exact N1|]. split; [exact N2|]. clear N1 N2.
  unfold tighten_one in H. cbn [fst snd] in H. assert (Ep : 0 < EPS) by reflexivity.
  set (v := e_eval (ct_expr c) y) in *.
  assert (A : above c y == qmax v 0) by (unfold above, qmax; fold v; destruct (Qlt_le_dec 0 v); destruct (Qlt_le_dec v 0); lra).
  assert (B : below c y == qmax (- v) 0) by (unfold below, qmax; fold v; destruct (Qlt_le_dec v 0); destruct (Qlt_le_dec (- v) 0); lra).
  unfold ct_le, ct_ge in H. unfold bounds_above, bounds_below.
  destruct (Qlt_le_dec EPS (qmax v 0)); destruct (Qlt_le_dec EPS (qmax (- v) 0)); destruct (ct_sense c); cbn [andb] in H;
  try (match type of H with match ?d with _ => _ end = _ => destruct d; [|discriminate] end);
  (match type of H with Some ?t = _ => assert (E : c' = t) by congruence; rewrite E end); cbn [c_with_pen ct_pen_less ct_pen_greater];
  split; intros; try reflexivity; exfalso; intuition (try congruence; try lra).
Qed.
Lemma tighten_tightened o lg count y gap cs cs' ex : sensible o -> log_like lg -> counted count cs -> Forall (priced_within (co_initial o)) cs -> co_group o = false ->
  tighten_penalties o lg count y gap cs = Some (cs', ex) -> Forall2 (tightened y) cs cs'.
Proof.
  intros S L C P Hg H. unfold tighten_penalties in H. rewrite Hg in H.
  destruct (all_some (map (tighten_one o lg count y gap (sum_violation count y cs) (sum_squared lg count y cs)) (numbered cs))) as [cs1|] eqn:E; [|discriminate].
  apply all_some_in in E. assert (Hc : cs' = map (cap_one (co_initial o)) cs1) by congruence. subst cs'.
  assert (F1 : Forall2 (tightened y) cs cs1).
  { apply forall2_numbered. refine (forall2_impl _ _ _ _ _ E). intros [i c] c' Hin K. cbn [snd]. apply numbered_in in Hin.
    refine (tighten_one_tightened o lg count y gap _ _ i c c' S (lg_nonneg lg _ L (C i c Hin)) (sum_violation_nonneg count y cs C) (sum_squared_nonneg lg count y cs L C) K). }
  clear - F1 P. rewrite Forall_forall in P. induction F1 as [|c c' l l' (T1 & T2 & T3 & T4) F IH]; cbn [map]; constructor; [|apply IH; intros; apply P; now right].
  destruct (P c (or_introl eq_refl)) as [[P1 P2] [P3 P4]]. unfold tightened, cap_one. cbn [c_with_pen ct_pen_less ct_pen_greater].
  split; [now apply qmin_glb|]. split; [now apply qmin_glb|].
  split; intros K; [specialize (T3 K)|specialize (T4 K)]; unfold qmin; destruct (Qlt_le_dec _ _); lra.
Qed.
Lemma raw_total_eq md y : raw_total md y == total_viol (md_cons md) y.
Proof.
  unfold raw_total, total_viol. rewrite fold_sum, Qplus_0_l. induction (md_cons md) as [|c l IH]; cbn [fold_right]; [reflexivity|]. rewrite IH, raw_viol. reflexivity.
Qed.
Lemma bettered_eq md y z : bettered md y z <-> raw_objective md y < raw_objective md z \/ raw_total md y < raw_total md z.
Proof. unfold bettered. rewrite !raw_total_eq. reflexivity. Qed.

