(** Proofs for C58, continued: the rounds, the answer, solve. *)
From Coq Require Import List ZArith QArith Qabs Permutation Lia Lqa Bool.
From Verif Require Import ContainerModel ExprModel ExprSpec ExprProof ConstraintModel ConstraintSpec ConstraintProof EvalModel EvalSpec EvalSpec2
  EvalProof EvalProof2 EvalProof3 SolutionModel SolutionSpec SolutionProof VariableModel PresolveModel SelectionModel SelectionSpec SelectionProof3
  TabuModel TabuSpec TabuProof LoopModel LoopSpec LoopProof LoopProof2 LoopProof3 LocalModel LocalSpec LocalProof LocalProof2
  LagrangeModel LagrangeSpec LagrangeProof LagrangeProof2 LagrangeProof3 ControllerModel ControllerSpec ControllerProof ControllerProof2 ControllerProof3 SolverModel SolverSpec SolverProof SolverProof2.
Import ListNotations.
Local Open Scope Q_scope.

(** ** The update of the controller only changes coefficients *)
Lemma tighten_repriced o lg count y gap cs cs' ex : tighten_penalties o lg count y gap cs = Some (cs', ex) -> Forall2 repriced cs cs'.
Proof.
  intros H. unfold tighten_penalties in H.
  destruct (all_some (map (tighten_one o lg count y gap (sum_violation count y cs) (sum_squared lg count y cs)) (numbered cs))) as [cs1|] eqn:E; [|discriminate].
  apply all_some_in in E.
  assert (F1 : Forall2 repriced cs cs1).
  { apply forall2_numbered. refine (forall2_impl _ _ _ _ _ E). intros [i c] c' _ K. cbn [snd]. unfold tighten_one in K. cbn [fst snd] in K.
    destruct (ct_le c && _); [destruct (delta _ _ _ _ _ _ _); [|discriminate]; assert (c' = c_with_pen c (ct_pen_less c + co_tight o * q) (ct_pen_greater c)) by congruence; subst; apply with_pen_repriced|].
    destruct (ct_ge c && _); [destruct (delta _ _ _ _ _ _ _); [|discriminate]; assert (c' = c_with_pen c (ct_pen_less c) (ct_pen_greater c + co_tight o * q)) by congruence; subst; apply with_pen_repriced|].
    assert (c' = c) by congruence. subst. repeat split. }
  assert (Hc : cs' = map (cap_one (co_initial o)) (if co_group o then group_penalties (co_proxy o) cs1 else cs1)) by congruence. subst cs'.
  refine (forall2_trans _ _ _ repriced_trans _ _ _ F1 _).
  refine (forall2_trans _ _ _ repriced_trans _ (if co_group o then group_penalties (co_proxy o) cs1 else cs1) _ _ _).
  - destruct (co_group o); [|apply repriced_refl]. unfold group_penalties. apply forall2_numbered. apply forall2_map. intros [i c] _. cbn [fst snd]. apply with_pen_repriced.
  - apply forall2_map. intros c _. apply with_pen_repriced.
Qed.
Lemma update_repriced o lg root r h m nmut draw md k qg yg ql yl feasible k' cs' : incumbents h qg yg ql yl feasible ->
  k_update o lg root r h m nmut draw md k = Some (k', cs') -> Forall2 repriced (md_cons md) cs' /\ ((0 <= nmut)%Z -> (0 <= co_tenure o)%Z -> (0 <= k_tenure k)%Z -> (0 <= k_tenure k')%Z).
Proof.
  intros INC U. destruct (k_update_parts o lg root r h m nmut draw md k qg yg ql yl feasible INC) as (outer & inner & crowded & rising & X). cbv zeta in X.
  rewrite U in X. destruct X as (_ & X & _ & _ & Xt & _). split.
  - unfold pens_of in X. set (fl := broken _ _ _) in *. destruct (fl_reset fl).
    + assert (cs' = reset_penalties md) by congruence. subst cs'. unfold reset_penalties. apply forall2_map. intros. apply with_pen_repriced.
    + destruct (fl_tighten fl); [now apply tighten_repriced in X|]. destruct (fl_relax fl).
      * assert (E : cs' = map (relax_one (relax_rate (if co_outer_breaker o && fl_relax (decided o (Z.testbit (rr_status r) 1) (rr_status r =? 0)%Z (if Qlt_le_dec (qg - ql) GAP_TOLERANCE then true else false) feasible
            (if Qlt_le_dec (rr_range r / qmax 1 (Qabs qg)) RANGE_THRESHOLD then true else false) (ho_found h) (raw_improved md yl (k_current k))) then next_rate o root outer crowded (Z.testbit (rr_status r) 2) k else k_rate k) (rr_rate r) feasible) yl) (md_cons md)) by (unfold relax_penalties in X; congruence).
        rewrite E. apply forall2_map. intros. unfold relax_one. apply with_pen_repriced.
      * assert (cs' = md_cons md) by congruence. subst cs'. apply repriced_refl.
  - intros N T K. rewrite Xt. destruct (co_auto_tenure o); [|exact K]. unfold next_tenure. destruct (Z.testbit (rr_status r) 1); [lia|]. destruct (rr_status r =? 0)%Z; [lia|].
    destruct (Z.ltb_spec (k_tenure k) (rr_tenure r)); [lia|]. destruct (_ && rising); lia.
Qed.
Lemma repriced_core l l' : Forall2 repriced l l' -> map core l' = map core l.
Proof. induction 1 as [|c c' l l' H F IH]; cbn [map]; [reflexivity|]. f_equal; [|exact IH]. unfold repriced in H. unfold core. decompose [and] H. congruence. Qed.

Section Rounds.
Variables (is01 : nat -> bool) (p : problem) (s0 : mstate) (m0 : memory) (naive : Q) (o : copt) (lg : Z -> Q) (root : Q -> Q) (good : (nat -> Z) -> Prop).
Hypothesis PREP : prepared is01 p s0 m0.
Hypothesis TEN : (0 <= co_tenure o)%Z.
Hypothesis GE : forall x y, (forall v, x v = y v) -> good x -> good y.
Notation inv := (rinv p s0 naive (co_initial o) (well_priced lg root o s0) good).

Lemma held_incumbents r vs : inv r -> vs <> [] -> (exists es, rn_events r = es ++ [ResetLocal] ++ offers vs) ->
  exists qg yg ql yl feasible, incumbents (rn_holder r) qg yg ql yl feasible /\ In yg (visited r) /\ In yl (visited r) /\
    (feasible = false -> ~ satisfies (ms_model s0) yl).
Proof.
  intros I Nv (es & Ee). pose proof (rinv_h p s0 naive (co_initial o) (well_priced lg root o s0) good r I) as (_ & _ & Hg & Hl).
  rewrite Ee in Hl at 1. cbn [app] in Hl. rewrite since_offers in Hl.
  destruct Hg as [[E1 _]|(yg & sg & G1 & G2 & G3 & _)].
  { pose proof (rinv_current p s0 naive (co_initial o) (well_priced lg root o s0) good r I) as C. unfold visited in C. rewrite E1 in C. destruct C. }
  destruct Hl as [[E1 _]|(yl & sl & L1 & L2 & L3 & _)]; [contradiction|].
  assert (Lv : In (yl, sl) (offered (rn_events r))).
  { rewrite Ee, offered_app. apply in_app_iff. right. cbn [app offered]. rewrite offered_offers. exact L1. }
  exists (sc_global_aug sg), yg, (sc_local_aug sl), yl, (sc_feasible sl). split; [|split; [|split]].
  - exists sg, sl. destruct (ho_global (rn_holder r)) as [a b]. destruct (ho_local (rn_holder r)) as [c d]. cbn [sl_obj sl_stored] in *. subst. auto.
  - exact (in_visited r yg sg G1).
  - exact (in_visited r yl sl Lv).
  - intros F Sa. destruct I as (_ & _ & _ & _ & V & _). destruct (V yl sl Lv) as ((_ & _ & Hf) & _). apply Hf in Sa. congruence.
Qed.

Definition rounds_ok (out : outcome run) (n m : Z) : Prop :=
  match out with
  | Done r => inv r /\ (n <= rn_rounds r <= n + m)%Z
  | Rejected r y => (inv r /\ (n <= rn_rounds r <= n + m)%Z) /\ In y (visited r) /\ ~ valid_start (pb_n p) (placed p y) (pb_sels p)
  | NotANumber r => (inv r /\ (n <= rn_rounds r <= n + m)%Z) /\ (log_like lg -> unpriceable s0 r)
  end.
Lemma rounds_weaken out n n' m m' : (n <= n')%Z -> (n' + m' <= n + m)%Z -> rounds_ok out n' m' -> rounds_ok out n m.
Proof.
  intros A B. destruct out as [r|r y|r]; cbn [rounds_ok]; intros H.
  - destruct H as (I & H). split; [exact I|lia].
  - destruct H as ((I & H) & K). split; [|exact K]. split; [exact I|lia].
  - destruct H as ((I & H) & K). split; [|exact K]. split; [exact I|lia].
Qed.
Lemma v_rounds_ok limit target ds :
  (forall d, In d ds -> (0 <= lo_nmut (td_options d))%Z /\ (forall t, In t (map fst (td_mods d)) -> trial_ok is01 s0 t) /\
     forall e t, In e (td_envs d) -> In t (en_moves e) -> trial_ok is01 s0 t) ->
  (forall d k s h m, In d ds -> same_core s s0 -> good (ms_x s) -> forall q, In q (lp_visited (fst (l_search (governed k (td_options d)) s h m (td_mods d) (td_envs d)))) -> good (fst q)) ->
  forall i last k r, inv r -> In (k_current k) (visited r) -> (0 <= k_tenure k)%Z -> ((well_priced lg root o s0) -> co_relax_min o <= k_rate k <= co_relax_max o) ->
  rounds_ok (v_rounds o lg root p limit target ds i last k r) (rn_rounds r) (Z.max 0 (limit - i)).
Proof.
  induction ds as [|d ds IH]; intros H HG i last k r I Ck Tk Rk; cbn [v_rounds]; [split; [exact I|lia]|].
  destruct (td_time_over d); [split; [exact I|lia]|]. destruct (Z.leb_spec limit i) as [Hl|Hl]; [split; [exact I|lia]|].
  destruct (target_reached target (rn_holder r)); [split; [exact I|lia]|].
  destruct ((0 <? i)%Z && match last with Some Optimal => true | _ => false end); [split; [exact I|lia]|].
  pose proof (import_spec is01 p s0 m0 naive (co_initial o) (well_priced lg root o s0) good PREP r (k_current k) I (visited_sound p s0 naive (co_initial o) (well_priced lg root o s0) good r _ I Ck)) as Im.
  destruct (import_sparse p (rn_ms r) (k_current k)) as [s|]; [|split; [split; [exact I|lia]|split; [exact Ck|exact Im]]].
  destruct Im as ((x & Ex & Exy) & L & Co & Cl).
  assert (Gs0 : good (ms_x s)) by (subst s; cbn [with_x ms_x]; apply (GE (k_current k)); [intros v; symmetry; apply Exy|eapply rinv_good; [exact I|exact Ck]]).
  pose proof (fun q Hq => HG d k s (rn_holder r) (rn_mem r) (or_introl eq_refl) Co Gs0 q Hq) as Gq. pose proof PREP as (_ & _ & R & _). destruct (H d (or_introl eq_refl)) as (D1 & D2 & D3).
  assert (Mc : counted_all (rn_mem r)) by (eapply rinv_counts; exact I).
  pose proof (l_search_clean s0 R (governed k (td_options d)) s (rn_holder r) (rn_mem r) (td_mods d) (td_envs d) Cl Mc) as (Gc & Gs & Gm & Gn).
  destruct (search_facts is01 (governed k (td_options d)) s (rn_holder r) (rn_mem r) (td_mods d) (td_envs d) L Tk D1
     (fun t Ht => core_trial is01 s0 s t Co (D2 t Ht)) (fun e t He Ht => core_trial is01 s0 s t Co (D3 e t He Ht))) as ((Mi & _ & V & _ & Hh & _) & _).
  destruct (l_search (governed k (td_options d)) s (rn_holder r) (rn_mem r) (td_mods d) (td_envs d)) as [l st]. cbn [fst] in *.
  fold (offers (lp_visited l)).
  set (r' := mkRun (lp_ms l) (lp_holder l) (lp_mem l) (rn_current r) (rn_events r ++ [ResetLocal] ++ offers (lp_visited l)) (rn_starts r ++ [k_current k]) (rn_rounds r + 1)).
  assert (I' : inv r').
  { apply (search_rinv is01 p s0 naive (co_initial o) (well_priced lg root o s0) good r s); try assumption; [subst s; eapply rinv_prices; exact I|apply Mi|eapply rinv_current; exact I|].
    intros y Hy. apply in_app_iff in Hy as [Hy|[<-|[]]]; [eapply rinv_starts; eassumption|exact Ck]. }
  assert (Vv : forall y, In y (visited r) -> In y (visited r')).
  { intros y Hy. unfold visited in *. cbn [r' rn_events]. rewrite offered_app, map_app. apply in_app_iff. now left. }
  destruct (held_incumbents r' (lp_visited l) I' Gn (ex_intro _ (rn_events r) eq_refl)) as (qg & yg & ql & yl & feasible & INC & Yg & Yl & Nf).
  cbn [r' rn_holder] in INC. assert (Core : same_core (lp_ms l) s0) by apply I'.
  match goal with |- context [k_update o lg root ?rs ?h ?m ?n ?dr ?md k] => set (res := rs); destruct (k_update o lg root res h m n dr md k) as [[k' cs']|] eqn:U end.
  - destruct (update_repriced o lg root res (lp_holder l) (lp_mem l) _ _ _ k qg yg ql yl feasible k' cs' INC U) as [Rp Tk'].
    assert (Sp : (well_priced lg root o s0) -> Forall (priced_within (co_initial o)) cs' /\ co_relax_min o <= k_rate k' <= co_relax_max o).
    { intros St. pose proof St as (S1 & S2 & S3 & S4 & _). assert (Cn : counted (mm_vcount (lp_mem l)) (md_cons (ms_model (lp_ms l)))) by (intros j c _; apply Gm).
      assert (S4' : 0 <= md_gpen (ms_model (lp_ms l)) <= co_initial o) by (destruct Core as (_ & _ & -> & _); exact S4).
      destruct (update_pens o lg root res (lp_holder l) (lp_mem l) _ _ _ k qg yg ql yl feasible INC k' cs' S1 S2 S3 Cn S4' (Rk St) (rinv_prices p s0 naive (co_initial o) (well_priced lg root o s0) good r' I' St) U) as (_ & P2 & P3 & _).
      split; [exact P2|exact P3]. }
    eapply (rounds_weaken _ (rn_rounds r) (rn_rounds r + 1) _ (Z.max 0 (limit - (i + 1)))); [lia|lia|].
    apply (IH (fun d' Hd => H d' (or_intror Hd)) (fun d' k1 s1 h1 m1 Hd => HG d' k1 s1 h1 m1 (or_intror Hd)) (i + 1)%Z st k' (mkRun (with_constraints (rn_ms r') cs') (rn_holder r') (rn_mem r') (rn_current r') (rn_events r') (rn_starts r') (rn_rounds r'))).
    + destruct I' as (A & B & C & E & F & G & J & _ & K). split; [|split; [exact B|split; [exact C|split; [exact E|split; [exact F|split; [exact G|split; [exact J|split; [|exact K]]]]]]]].
      * destruct A as (A1 & A2 & A3 & (_ & A4)). apply repriced_core in Rp. assert (Ec : map core cs' = map core (md_cons (ms_model s0))) by (rewrite Rp; exact A1).
        split; [exact Ec|]. split; [exact A2|]. split; [exact A3|]. split; [exact (core_skel _ _ Ec)|exact A4].
      * intros St. exact (proj1 (Sp St)).
    + destruct (update_start o lg root res (lp_holder l) (lp_mem l) _ _ _ k qg yg ql yl feasible INC k' cs' U) as [->|[->| ->]]; [exact Yg|exact Yl|exact (Vv _ Ck)].
    + apply Tk'; assumption.
    + intros St. exact (proj2 (Sp St)).
  - split; [split; [exact I'|cbn [r' rn_rounds]; lia]|]. intros Lg.
    assert (Cn : counted (mm_vcount (lp_mem l)) (md_cons (ms_model (lp_ms l)))) by (intros j c _; apply Gm).
    destruct (update_none o lg root res (lp_holder l) (lp_mem l) _ _ _ k qg yg ql yl feasible INC Lg Cn U) as (N1 & (c & N2 & N3) & N4).
    exists yl. split; [exact Yl|]. split; [now apply Nf|]. split.
    + destruct (core_in _ _ c (proj1 Core) N2) as (c' & A & B). exists c'. split; [exact A|]. now rewrite <- (viol_core yl c c' B).
    + intros j c' Hj Hv. destruct (core_nth _ _ j c' (proj1 (core_sym _ _ Core)) Hj) as (c2 & A & B). apply (N4 j c2 A). now rewrite <- (viol_core yl c' c2 B).
Qed.

(** ** The answer *)
Lemma valid_ext x y : (forall v, x v = y v) -> valid_start (pb_n p) (placed p x) (pb_sels p) -> valid_start (pb_n p) (placed p y) (pb_sels p).
Proof.
  intros E [V1 V2]. split.
  - intros s Hs. destruct (V1 s Hs) as (v & C1 & C2 & C3). exists v. split; [exact C1|]. cbn [placed v_with_value va_value] in *. rewrite <- E. split; [exact C2|]. intros w Hw Dw. rewrite <- E. now apply C3.
  - intros v Hv. specialize (V2 v Hv). cbn [placed v_with_value va_value va_sense va_lower va_upper] in *. rewrite <- E. exact V2.
Qed.
Lemma distance_viol c x d : distance (e_eval (ct_expr c) x) (ct_sense c) 0 d -> d == viol c x.
Proof.
  intros H. unfold viol, above, below. inversion H as [s r d' Hs Hd|r d' Hs Hd|r d' Hs Hd|r d' Hs Hd]; subst; rewrite Hd;
    [destruct (ct_sense c); unfold holds in Hs| | |];
    destruct (Qlt_le_dec 0 (e_eval (ct_expr c) x)); destruct (Qlt_le_dec (e_eval (ct_expr c) x) 0); try lra.
  - rewrite Qabs_pos by lra. lra.
  - rewrite Qabs_neg by lra. lra.
Qed.
Lemma update_violation s : fold_left (fun q c => q + ct_violation c) (md_cons (ms_model (ms_update s))) 0 == total_viol (md_cons (ms_model (ms_update s))) (ms_x (ms_update s)).
Proof.
  assert (A : forall c, In c (md_cons (ms_model (ms_update s))) -> ct_violation c == viol c (ms_x (ms_update s))).
  { intros c Hc. cbn [ms_update with_violative ms_model md_cons] in Hc. apply in_map_iff in Hc as (c' & <- & _).
    apply distance_viol. exact (proj2 (proj2 (proj2 (proj2 (refresh_agrees c' _ (ms_x (ms_update s)) _ (Qeq_refl _)))))). }
  revert A. generalize (ms_x (ms_update s)) as x, (md_cons (ms_model (ms_update s))) as l. intros x l A.
  assert (G : forall a, fold_left (fun q c => q + ct_violation c) l a == a + total_viol l x).
  { induction l as [|c l IH]; intros a; cbn [fold_left total_viol fold_right]; [lra|]. rewrite IH; [|intros; apply A; now right].
    fold (total_viol l x). rewrite (A c (or_introl eq_refl)). lra. }
  rewrite G. lra.
Qed.
Lemma settle_dep s x d i q : NoDup (map fst (ms_deps s)) -> In (d, i) (ms_deps s) -> nth_error (ms_exprs s) i = Some q ->
  settle (ms_exprs s) (ms_deps s) x d = Qtrunc (e_eval (fst (fst q)) x).
Proof.
  intros N H E. unfold settle. set (es := map (fun p : expr * bool * Q => (fst p, e_eval (fst (fst p)) x)) (ms_exprs s)).
  assert (Ee : nth_error es i = Some (fst q, e_eval (fst (fst q)) x)) by (unfold es; rewrite nth_error_map, E; reflexivity). clearbody es.
  assert (K : forall l (y : nat -> Z), ~ In d (map fst l) -> fold_left (fun y0 d0 => set_val y0 (fst d0) (match nth_error es (snd d0) with Some p0 => Qtrunc (snd p0) | None => y0 (fst d0) end)) l y d = y d).
  { clear. induction l as [|[a b] l IH]; intros y H; cbn [fold_left]; [reflexivity|]. cbn [map fst In] in H. rewrite IH by tauto. unfold set_val. cbn [fst]. destruct (Nat.eqb_spec d a) as [->|]; [tauto|reflexivity]. }
  clear E. set (val := Qtrunc (e_eval (fst (fst q)) x)). assert (Ev : Qtrunc (snd (fst q, e_eval (fst (fst q)) x)) = val) by reflexivity. clearbody val. generalize x at 1 as y. revert N H. induction (ms_deps s) as [|[a b] l IH]; intros N H y; [destruct H|]. cbn [map fst] in N. inversion N; subst. cbn [fold_left fst snd].
  destruct H as [H|H]; [|now apply IH]. injection H as -> ->. rewrite K by assumption. rewrite Ee. unfold set_val. now rewrite Nat.eqb_refl.
Qed.
Lemma postprocess_ok r : inv r ->
  match v_postprocess p r with
  | Done (a, r') => r' = r /\ right_answer p s0 r a
  | Rejected r' y => r' = r /\ In y (visited r) /\ ~ valid_start (pb_n p) (placed p y) (pb_sels p)
  | NotANumber _ => False
  end.
Proof.
  intros I. unfold v_postprocess. pose proof (rinv_h p s0 naive (co_initial o) (well_priced lg root o s0) good r I) as (Hf & Hb & Hg & _).
  assert (St : exists y sc, sl_stored (if ho_found (rn_holder r) then ho_feasible (rn_holder r) else ho_global (rn_holder r)) = Some (y, sc) /\ In (y, sc) (offered (rn_events r)) /\
     (ho_found (rn_holder r) = true -> sc_feasible sc = true /\ forall y' sc', In (y', sc') (offered (rn_events r)) -> sc_feasible sc' = true -> sc_objective sc <= sc_objective sc' + EPS) /\
     (ho_found (rn_holder r) = false -> forall y' sc', In (y', sc') (offered (rn_events r)) -> sc_feasible sc' = false /\ sc_global_aug sc <= sc_global_aug sc' + EPS)).
  { destruct (ho_found (rn_holder r)) eqn:Ef.
    - destruct (proj1 Hf eq_refl) as (z & sz & Z1 & Z2). destruct Hb as [[E1 _]|(y & sc & B1 & _ & B3 & B4)].
      + exfalso. assert (K : In (z, sz) (filter (fun q : (nat -> Z) * score => sc_feasible (snd q)) (offered (rn_events r)))) by (apply filter_In; split; assumption). rewrite E1 in K. destruct K.
      + apply filter_In in B1 as [B1 B2]. exists y, sc. split; [exact B3|]. split; [exact B1|]. split; [|discriminate]. intros _. split; [exact B2|]. intros y' sc' H1 H2. apply (B4 y' sc'). apply filter_In. split; assumption.
    - destruct Hg as [[E1 _]|(y & sc & B1 & _ & B3 & B4)].
      + exfalso. pose proof (rinv_current p s0 naive (co_initial o) (well_priced lg root o s0) good r I) as C. unfold visited in C. rewrite E1 in C. destruct C.
      + exists y, sc. split; [exact B3|]. split; [exact B1|]. split; [discriminate|]. intros _ y' sc' H'. split; [|now apply (B4 y' sc')].
        destruct (sc_feasible sc') eqn:Es; [|reflexivity]. assert (K : false = true) by (apply Hf; exists y', sc'; split; assumption). discriminate. }
  destruct St as (y & sc & -> & Yo & Yf & Yg). pose proof (in_visited r y sc Yo) as Yv.
  destruct I as (Co & Kr & _ & _ & V & _). destruct (V y sc Yo) as (Ho & [Ky Sy]). destruct PREP as (L & D & R & Sel & B & Z1 & _).
  unfold import_kept. set (z := fun v => if ms_fixed (rn_ms r) v then ms_x (rn_ms r) v else y v).
  assert (Ez : forall v, z v = y v).
  { intros v. unfold z. destruct (ms_fixed (rn_ms r) v) eqn:Ef; [|reflexivity].
    assert (Ef0 : ms_fixed s0 v = true) by (destruct Co as (_ & _ & _ & (_ & _ & _ & _ & E & _)); now rewrite <- E).
    assert (Nd : ~ In v (map fst (ms_deps s0))) by (intros Hd; destruct (D v Hd); congruence). now rewrite (Ky v Ef0 Nd), (Kr v Ef0 Nd). }
  clearbody z.
  assert (Rd : selections_ready (placed p z) (pb_sels p)) by exact Sel. assert (Sb : sane_bounds (pb_n p) (placed p z)) by exact B.
  destruct (verify false (pb_n p) (md_cons (ms_model (rn_ms r))) (pb_sens p) (placed p z) (pb_sels p)) as [[vs ss]|] eqn:E.
  2: { split; [reflexivity|]. split; [exact Yv|]. intros W. apply (valid_ext y z (fun v => eq_sym (Ez v))) in W.
       destruct (verify_valid false (pb_n p) (md_cons (ms_model (rn_ms r))) (pb_sens p) (placed p z) (pb_sels p) Rd W) as (vs & ss & E' & _). congruence. }
  split; [reflexivity|]. destruct (verify_spec _ _ _ _ _ _ _ _ Rd Sb E) as (S1 & S2 & _ & S4). specialize (S4 eq_refl).
  assert (Ev : forall v, va_value (vs v) = y v) by (intros v; rewrite S4; cbn [placed v_with_value va_value]; apply Ez).
  set (s := with_x (rn_ms r) (fun v => va_value (vs v))). assert (Cs : same_core s s0) by exact Co.
  assert (Ls : loop_start is01 s).
  { apply (core_start is01 s0); [exact L|exact Cs|]. intros v Hv. unfold s. cbn [with_x ms_x]. destruct (Z1 v Hv) as (Hn & Hs). destruct S2 as [V1 V2]. destruct (V2 v Hn) as [P1 P2].
    destruct (S1 v) as (L1 & L2 & _ & L4 & _). rewrite L4 in P1, P2. rewrite L1, L2 in P2. cbn [placed v_with_value va_sense va_lower va_upper] in P1, P2.
    destruct Hs as [Hs|[(Hs & Hb1 & Hc)|(sl & H1 & H2)]]; [destruct (P1 Hs); lia|specialize (P2 Hs); lia|].
    destruct (V1 sl H1) as (w & W1 & W2 & W3). destruct (Nat.eq_dec v w) as [->|Dw]; [lia|rewrite (W3 v H2 Dw); lia]. }
  assert (Ex : forall v, ms_x (ms_update s) v = y v).
  { intros v. rewrite update_settle, (settle_static s s0 _ (proj2 (proj2 (proj2 Cs)))). rewrite <- (Sy v). apply settle_agree; [exact R|]. intros w _. unfold s. cbn [with_x ms_x]. apply Ev. }
  pose proof (start_update is01 s Ls) as Mi. pose proof (minv_feasible is01 s _ Ls Mi) as Mf. rewrite (core_satisfies s0 s _ Cs) in Mf.
  assert (Cu : same_core (ms_update s) s0) by (eapply core_trans; [apply core_of_frame; apply Mi|exact Cs]).
  assert (Ext : forall e, e_eval e (ms_x (ms_update s)) == e_eval e y) by (intros e; apply eval_ext; intros v _; apply Ex).
  assert (Vx : value (ms_model s0) (ms_x (ms_update s)) == value (ms_model s0) y) by (unfold value; destruct (md_defined (ms_model s0)); [now rewrite Ext|reflexivity]).
  assert (Vl : forall c, viol c (ms_x (ms_update s)) == viol c y) by (intros c; rewrite !viol_vfun; apply vfun_comp; apply Ext).
  assert (Ax : augmented (ms_model s0) (ms_x (ms_update s)) == augmented (ms_model s0) y).
  { unfold augmented. rewrite Vx. assert (Eq : violation (ms_model s0) (ms_x (ms_update s)) == violation (ms_model s0) y); [|now rewrite Eq].
    unfold violation. induction (md_cons (ms_model s0)) as [|c l IH]; cbn [sum_enabled]; [reflexivity|]. rewrite IH. destruct (ct_enabled c); [now rewrite Vl|reflexivity]. }
  assert (Sx : satisfies (ms_model s0) (ms_x (ms_update s)) <-> satisfies (ms_model s0) y).
  { unfold satisfies. split; intros H c Hc He; specialize (H c Hc He); unfold holds in *; destruct (ct_sense c); rewrite Ext in *; exact H. }
  destruct Ho as (Ho1 & Ho2 & Ho3).
  split; [|split; [|split]]; cbn [an_x].
  - apply (valid_ext z); [intros v; rewrite Ex; apply Ez|]. destruct S2 as [V1 V2]. split.
    + intros sl Hs. destruct (V1 sl Hs) as (w & W1 & W2 & W3). exists w. split; [exact W1|]. rewrite S4 in W2. split; [exact W2|]. intros u Hu Du. rewrite <- S4. now apply W3.
    + intros v Hv. destruct (V2 v Hv) as [P1 P2]. destruct (S1 v) as (L1 & L2 & _ & L4 & _). rewrite L4, L1, L2, S4 in *. split; assumption.
  - intros v Hv. rewrite Ex. apply Ky; [exact Hv|]. intros Hd. destruct (D v Hd). congruence.
  - intros d i q Hd Hq Nd. rewrite Ex, <- (Sy d). rewrite (settle_dep s0 y d i q Nd Hd Hq). apply qtrunc_comp. symmetry. apply Ext.
  - split; [exists y; split; [exact Yv|exact Ex]|]. cbn [an_x an_objective an_violation an_feasible]. split; [|split; [|split; [exact Mf|]]].
  + intros Df. destruct Cu as (_ & _ & _ & (_ & _ & E3 & E4 & _)). rewrite <- E3. apply Mi. congruence.
  + rewrite update_violation. apply total_core. apply Cu.
  + rewrite Mf, Sx. split; [|split].
    * split; [intros H; exists y; split; assumption|]. intros (y' & H1 & H2). unfold visited in H1. apply in_map_iff in H1 as ([z' sz] & E1 & H1). cbn [fst] in E1. subst z'.
      destruct (V y' sz H1) as ((_ & _ & K) & _). apply K in H2. destruct (ho_found (rn_holder r)) eqn:Ef; [apply Ho3; now apply Yf|]. destruct (Yg eq_refl y' sz H1). congruence.
    * intros H y' Hy Hs. unfold visited in Hy. apply in_map_iff in Hy as ([z' sz] & E1 & H1). cbn [fst] in E1. subst z'.
      destruct (V y' sz H1) as ((K1 & _ & K3) & _). apply K3 in Hs. rewrite Vx, <- Ho1, <- K1. destruct (ho_found (rn_holder r)) eqn:Ef; [now apply (Yf eq_refl) with (y' := y')|].
      destruct (Yg eq_refl y' sz H1). congruence.
    * intros H y' Hy. unfold visited in Hy. apply in_map_iff in Hy as ([z' sz] & E1 & H1). cbn [fst] in E1. subst z'.
      destruct (V y' sz H1) as ((_ & K2 & _) & _). rewrite Ax, <- Ho2, <- K2. destruct (ho_found (rn_holder r)) eqn:Ef; [|now apply (Yg eq_refl y' sz H1)].
      exfalso. destruct (Yf eq_refl) as [K _]. apply Ho3 in K. apply Sx in K. apply Mf in K. congruence.
Qed.
End Rounds.

(** ** The whole of solve *)
Lemma solve_ok lg root p a s0 m0 is01 (good : (nat -> Z) -> Prop) : prepared is01 p s0 m0 -> admissible is01 s0 a ->
  (forall x y, (forall v, x v = y v) -> good x -> good y) -> good (ms_x (ms_export (ms_update s0))) ->
  (forall g s h, in_lagrange a = Some g -> gg_applicable g = true -> same_core s s0 -> good (ms_x s) ->
     forall q, In q (gl_visited (fst (g_search (gg_options g) (pb_minimize p) (gg_vars g) (gg_lo g) (gg_hi g) s h (gg_clock g)))) -> good (fst q)) ->
  (forall g s h m, in_local a = Some g -> same_core s s0 -> good (ms_x s) -> forall q, In q (sl_visited (fst (s_search (gc_options g) s h m (gc_envs g)))) -> good (fst q)) ->
  (forall d k s h m, In d (in_rounds a) -> same_core s s0 -> good (ms_x s) -> forall q, In q (lp_visited (fst (l_search (governed k (td_options d)) s h m (td_mods d) (td_envs d)))) -> good (fst q)) ->
  let ok r := orderly (in_limit a) r /\ (forall y, In y (visited r) -> good y) /\
    (well_priced lg root (in_control a) s0 -> Forall (priced_within (co_initial (in_control a))) (md_cons (ms_model (rn_ms r)))) in
  match solve lg root p a s0 m0 with
  | Done (an, r) => ok r /\ right_answer p s0 r an
  | Rejected r y => ok r /\ In y (visited r) /\ ~ valid_start (pb_n p) (placed p y) (pb_sels p)
  | NotANumber r => ok r /\ (log_like lg -> unpriceable s0 r)
  end.
Proof.
  intros PREP (A1 & A2 & A3 & A4) GE G0 G1 G2 G3 ok. unfold solve. set (o := in_control a) in *.
  pose proof (preprocess_rinv is01 p s0 m0 (in_naive a) (co_initial o) (well_priced lg root o s0) good PREP (fun W => proj2 (proj2 (proj2 (proj2 W)))) G0) as I0.
  apply (pdlp_rinv p s0 (in_naive a) (co_initial o) (well_priced lg root o s0) good (in_pdlp a)) in I0.
  assert (N0 : rn_rounds (v_pdlp p (in_pdlp a) (v_preprocess (in_naive a) s0 m0)) = 0%Z) by (destruct (in_pdlp a); reflexivity).
  set (r0 := v_pdlp p (in_pdlp a) (v_preprocess (in_naive a) s0 m0)) in *. clearbody r0.
  assert (OK : forall r n, rinv p s0 (in_naive a) (co_initial o) (well_priced lg root o s0) good r -> (0 <= n <= Z.max 0 (in_limit a))%Z -> rn_rounds r = n -> ok r).
  { intros r n I Hn E. split; [split; [eapply rinv_starts; exact I|lia]|]. split; [eapply rinv_good; exact I|eapply rinv_prices; exact I]. }
  pose proof (lagrange_ok is01 p s0 m0 (in_naive a) (co_initial o) (well_priced lg root o s0) good PREP GE (in_lagrange a) r0 I0 A1 G1) as P1.
  destruct (v_lagrange p (in_lagrange a) r0) as [r1|r1 y|r1]; cbn [bind phase_ok] in *; [| |destruct P1].
  2: { destruct P1 as (I & E & H). split; [apply (OK r1 0%Z I); [lia|congruence]|exact H]. }
  destruct P1 as (I1 & E1).
  pose proof (local_ok is01 p s0 m0 (in_naive a) (co_initial o) (well_priced lg root o s0) good PREP GE (in_local a) r1 I1 A2 G2) as P2.
  destruct (v_local p (in_local a) r1) as [r2|r2 y|r2]; cbn [bind phase_ok] in *; [| |destruct P2].
  2: { destruct P2 as (I & E & H). split; [apply (OK r2 0%Z I); [lia|congruence]|exact H]. }
  destruct P2 as (I2 & E2). unfold v_tabu.
  pose proof (v_rounds_ok is01 p s0 m0 (in_naive a) o lg root good PREP A3 GE (in_limit a) (in_target a) (in_rounds a) A4 G3 0%Z None (k_setup o (rn_mem r2) (rn_current r2)) r2 I2
    (rinv_current p s0 (in_naive a) (co_initial o) (well_priced lg root o s0) good r2 I2) A3) as P3.
  assert (Rt : well_priced lg root o s0 -> co_relax_min o <= k_rate (k_setup o (rn_mem r2) (rn_current r2)) <= co_relax_max o).
  { intros ((_ & _ & _ & _ & S5 & S6 & _) & _). cbn [k_setup k_rate]. split; assumption. }
  specialize (P3 Rt). rewrite Z.sub_0_r in P3. assert (E0 : rn_rounds r2 = 0%Z) by congruence. rewrite E0 in P3. fold o.
  destruct (v_rounds o lg root p (in_limit a) (in_target a) (in_rounds a) 0 None (k_setup o (rn_mem r2) (rn_current r2)) r2) as [r3|r3 y|r3]; cbn [bind rounds_ok] in *.
  - destruct P3 as (I3 & H3). apply current_rinv in I3. pose proof (postprocess_ok is01 p s0 m0 (in_naive a) o lg root good PREP (with_current r3) I3) as P4.
    assert (Ok3 : ok (with_current r3)) by (apply (OK (with_current r3) (rn_rounds r3) I3); [lia|reflexivity]).
    destruct (v_postprocess p (with_current r3)) as [[an r4]|r4 y|r4]; [| |destruct P4].
    + destruct P4 as (-> & P4). split; assumption.
    + destruct P4 as (-> & P4). split; assumption.
  - destruct P3 as ((I3 & H3) & P3). split; [apply (OK r3 (rn_rounds r3) I3); [lia|reflexivity]|exact P3].
  - destruct P3 as ((I3 & H3) & P3). split; [apply (OK r3 (rn_rounds r3) I3); [lia|reflexivity]|exact P3].
Qed.
