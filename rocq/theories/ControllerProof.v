(** Proofs for C59. *)
From Coq Require Import List ZArith QArith Qabs Qround Lia Lqa Bool.
From Verif Require Import ExprModel ConstraintModel EvalModel EvalSpec SolutionModel TabuModel ControllerModel ControllerSpec.
Import ListNotations.
Local Open Scope Q_scope.

(** ** Lists *)
Lemma forall2_map {A B} (R : A -> B -> Prop) (f : A -> B) l : (forall a, In a l -> R a (f a)) -> Forall2 R l (map f l).
Proof. induction l as [|a l IH]; intros H; constructor; [apply H; now left|apply IH; intros; apply H; now right]. Qed.
Lemma forall2_impl {A B} (R S : A -> B -> Prop) l : (forall a b, In a l -> R a b -> S a b) -> forall l', Forall2 R l l' -> Forall2 S l l'.
Proof. induction l as [|a l IH]; intros H l' F; inversion F; subst; constructor; [apply H; [now left|assumption]|apply IH; [intros; apply H; [now right|assumption]|assumption]]. Qed.
Lemma forall2_trans {A} (R S T : A -> A -> Prop) : (forall a b c, R a b -> S b c -> T a c) -> forall l l' l'', Forall2 R l l' -> Forall2 S l' l'' -> Forall2 T l l''.
Proof.
  intros H l l' l'' F. revert l''. induction F as [|a b l l' r F IH]; intros l'' G; inversion G; subst; constructor; [eapply H; eassumption|now apply IH].
Qed.
Lemma forall2_right {A} (R : A -> A -> Prop) (P Q : A -> Prop) : (forall a b, P a -> R a b -> Q b) -> forall l l', Forall P l -> Forall2 R l l' -> Forall Q l'.
Proof. intros H l l' F G. induction G; [constructor|]. inversion F; subst. constructor; [eapply H; eassumption|auto]. Qed.
Lemma all_some_in {A B} (f : A -> option B) l : forall l', all_some (map f l) = Some l' -> Forall2 (fun a b => f a = Some b) l l'.
Proof.
  induction l as [|a l IH]; cbn [map all_some]; intros l' H; [injection H as <-; constructor|]. destruct (f a) as [b|] eqn:E; [|discriminate].
  destruct (all_some (map f l)) as [m|] eqn:Em; [|discriminate]. injection H as <-. constructor; [exact E|now apply IH].
Qed.
Lemma all_some_none {A B} (f : A -> option B) l : all_some (map f l) = None -> exists a, In a l /\ f a = None.
Proof.
  induction l as [|a l IH]; cbn [map all_some]; [discriminate|]. destruct (f a) as [b|] eqn:E; [|intros _; exists a; split; [now left|exact E]].
  destruct (all_some (map f l)) as [m|]; [discriminate|]. intros _. destruct IH as (a' & H1 & H2); [reflexivity|]. exists a'. split; [now right|exact H2].
Qed.
Lemma numbered_snd cs : map snd (numbered cs) = cs.
Proof. unfold numbered. generalize 0%nat as n. induction cs as [|c cs IH]; intros n; cbn; [reflexivity|now rewrite IH]. Qed.
Lemma numbered_in cs i c : In (i, c) (numbered cs) <-> nth_error cs i = Some c.
Proof.
  unfold numbered. enough (G : forall n, In (i, c) (combine (seq n (length cs)) cs) <-> (n <= i)%nat /\ nth_error cs (i - n) = Some c).
  { rewrite G, Nat.sub_0_r. intuition lia. }
  induction cs as [|d cs IH]; intros n; cbn [length seq combine]; [split; [intros []|intros [_ H]; destruct (i - n)%nat; discriminate]|].
  cbn [In]. rewrite IH. split.
  - intros [H|[H1 H2]]; [injection H as <- <-; rewrite Nat.sub_diag; split; [lia|reflexivity]|].
    split; [lia|]. replace (i - n)%nat with (S (i - S n)) by lia. exact H2.
  - intros [H1 H2]. destruct (Nat.eq_dec i n) as [->|D]; [left; rewrite Nat.sub_diag in H2; cbn in H2; congruence|]. right. split; [lia|].
    replace (i - n)%nat with (S (i - S n)) in H2 by lia. exact H2.
Qed.
Lemma forall2_numbered (R : constr -> constr -> Prop) cs l' : Forall2 (fun ic c => R (snd ic) c) (numbered cs) l' -> Forall2 R cs l'.
Proof. intros H. rewrite <- (numbered_snd cs). induction H; constructor; assumption. Qed.

(** ** Comparisons *)
Lemma qmax_ge_l a b : a <= qmax a b. Proof. unfold qmax. destruct (Qlt_le_dec a b); lra. Qed.
Lemma qmax_ge_r a b : b <= qmax a b. Proof. unfold qmax. destruct (Qlt_le_dec a b); lra. Qed.
Lemma qmin_le_l a b : qmin a b <= a. Proof. unfold qmin. destruct (Qlt_le_dec b a); lra. Qed.
Lemma qmin_le_r a b : qmin a b <= b. Proof. unfold qmin. destruct (Qlt_le_dec b a); lra. Qed.
Lemma qmin_glb a b c : c <= a -> c <= b -> c <= qmin a b. Proof. unfold qmin. destruct (Qlt_le_dec b a); lra. Qed.
Lemma qmax_lub a b c : a <= c -> b <= c -> qmax a b <= c. Proof. unfold qmax. destruct (Qlt_le_dec a b); lra. Qed.

Lemma raw_viol c y : raw_violation c y == viol c y.
Proof.
  unfold raw_violation, viol, above, below, qmax, qmin. set (v := e_eval (ct_expr c) y).
  destruct (ct_sense c); destruct (Qlt_le_dec v 0); destruct (Qlt_le_dec 0 v); lra.
Qed.
Lemma raw_nonneg c y : 0 <= raw_violation c y.
Proof.
  unfold raw_violation, qmax, qmin. set (v := e_eval (ct_expr c) y). destruct (ct_sense c); destruct (Qlt_le_dec v 0); destruct (Qlt_le_dec 0 v); lra.
Qed.
Lemma with_pen_repriced c l g : repriced c (c_with_pen c l g).
Proof. repeat split. Qed.
Lemma repriced_trans a b c : repriced a b -> repriced b c -> repriced a c.
Proof. unfold repriced. intuition congruence. Qed.

(** ** Relaxing *)
Lemma relax_facts rate y cs cap : 0 <= rate <= 1 -> Forall (priced_within cap) cs ->
  Forall2 repriced cs (map (relax_one rate y) cs) /\ Forall2 not_dearer cs (map (relax_one rate y) cs) /\ Forall (priced_within cap) (map (relax_one rate y) cs).
Proof.
  intros R P. rewrite Forall_forall in P.
  assert (G : forall c, In c cs -> not_dearer c (relax_one rate y c) /\ priced_within cap (relax_one rate y c)).
  { intros c Hc. destruct (P c Hc) as [[P1 P2] [P3 P4]]. unfold not_dearer, priced_within, relax_one. cbn [c_with_pen ct_pen_less ct_pen_greater].
    assert (M1 : 0 <= ct_pen_less c * rate /\ ct_pen_less c * rate <= ct_pen_less c) by (split; nra).
    assert (M2 : 0 <= ct_pen_greater c * rate /\ ct_pen_greater c * rate <= ct_pen_greater c) by (split; nra).
    destruct (ct_le c && _); destruct (ct_ge c && _); repeat split; lra. }
  split; [apply forall2_map; intros; apply with_pen_repriced|]. split; [apply forall2_map; intros c Hc; apply (G c Hc)|].
  apply Forall_forall. intros c' Hc. apply in_map_iff in Hc as (c & <- & Hc). apply (G c Hc).
Qed.
Lemma relax_rate_range rate obj feasible : 0 <= rate <= 1 -> 0 <= relax_rate rate obj feasible <= 1.
Proof.
  intros R. unfold relax_rate. destruct (Qlt_le_dec EPS obj) as [L|L]; cbn [andb]; [|exact R]. destruct feasible; [|exact R].
  assert (0 < EPS) by reflexivity. unfold qmin. destruct (Qlt_le_dec obj rate); lra.
Qed.

(** ** Tightening *)
Lemma fold_sum {A} (f : A -> Q) l : forall a, fold_left (fun q x => q + f x) l a == a + fold_right (fun x q => f x + q) 0 l.
Proof. induction l as [|x l IH]; intros a; cbn [fold_left fold_right]; [lra|]. rewrite IH. lra. Qed.
Lemma sum_nonneg {A} (f : A -> Q) l : (forall x, In x l -> 0 <= f x) -> 0 <= fold_right (fun x q => f x + q) 0 l.
Proof. induction l as [|x l IH]; intros H; cbn [fold_right]; [lra|]. pose proof (H x (or_introl eq_refl)). specialize (IH (fun y Hy => H y (or_intror Hy))). lra. Qed.
Lemma sum_term {A} (f : A -> Q) l x : (forall x, In x l -> 0 <= f x) -> In x l -> f x <= fold_right (fun x q => f x + q) 0 l.
Proof.
  induction l as [|a l IH]; intros H Hx; [destruct Hx|]. cbn [fold_right]. pose proof (H a (or_introl eq_refl)).
  pose proof (sum_nonneg f l (fun y Hy => H y (or_intror Hy))). destruct Hx as [->|Hx]; [lra|].
  specialize (IH (fun y Hy => H y (or_intror Hy)) Hx). lra.
Qed.
Definition counted (count : nat -> Z) (cs : list constr) : Prop := forall i c, nth_error cs i = Some c -> (0 <= count i)%Z.
Lemma sum_violation_nonneg count y cs : counted count cs -> 0 <= sum_violation count y cs.
Proof.
  intros C. unfold sum_violation. rewrite fold_sum, Qplus_0_l. apply sum_nonneg. intros [i c] H. apply numbered_in in H. cbn [fst snd].
  apply Qmult_le_0_compat; [apply raw_nonneg|]. change 0 with (inject_Z 0). rewrite <- Zle_Qle. specialize (C i c H). lia.
Qed.
Lemma lg_nonneg lg n : log_like lg -> (0 <= n)%Z -> 0 <= lg n.
Proof. intros [L0 L1] H. destruct (Z.eq_dec n 0) as [->|D]; [rewrite L0; lra|]. assert (0 < lg n) by (apply L1; lia). lra. Qed.
Lemma squared_terms lg count y cs : log_like lg -> counted count cs ->
  forall ic, In ic (numbered cs) -> 0 <= raw_violation (snd ic) y * raw_violation (snd ic) y * lg (count (fst ic)).
Proof.
  intros L C [i c] H. apply numbered_in in H. cbn [fst snd]. pose proof (raw_nonneg c y). pose proof (lg_nonneg lg (count i) L (C i c H)).
  repeat apply Qmult_le_0_compat; assumption.
Qed.
Lemma sum_squared_nonneg lg count y cs : log_like lg -> counted count cs -> 0 <= sum_squared lg count y cs.
Proof. intros L C. unfold sum_squared. rewrite fold_sum, Qplus_0_l. apply sum_nonneg. now apply squared_terms. Qed.
Lemma div_nonneg a b : 0 <= a -> 0 <= b -> ~ b == 0 -> 0 <= a / b.
Proof. intros A B N. apply Qle_shift_div_l; [|lra]. destruct (Qlt_le_dec 0 b); [assumption|]. exfalso. apply N. lra. Qed.
Lemma delta_nonneg o lg gap tv ts n viol d : sensible o -> 0 <= lg n -> 0 <= tv -> 0 <= ts -> 0 <= viol -> delta o lg gap tv ts n viol = Some d -> 0 <= d.
Proof.
  intros (S1 & S2 & (S3 & S4) & _) Lg Tv Ts V H. unfold delta in H. destruct (Qeq_bool tv 0) eqn:E1; [discriminate|]. destruct (Qeq_bool ts 0) eqn:E2; [discriminate|].
  cbn [orb] in H. assert (N1 : ~ tv == 0) by (intros K; apply Qeq_bool_iff in K; congruence). assert (N2 : ~ ts == 0) by (intros K; apply Qeq_bool_iff in K; congruence).
  assert (Ed : d = co_balance o * (qmax 0 gap / tv) + (1 - co_balance o) * (qmax 0 gap / ts * lg n * viol)) by congruence. rewrite Ed. clear H Ed.
  pose proof (qmax_ge_l 0 gap) as G.
  pose proof (div_nonneg _ tv G Tv N1). pose proof (div_nonneg _ ts G Ts N2).
  assert (0 <= co_balance o * (qmax 0 gap / tv)) by (apply Qmult_le_0_compat; assumption).
  assert (0 <= (1 - co_balance o) * (qmax 0 gap / ts * lg n * viol)) by (apply Qmult_le_0_compat; [lra|]; apply Qmult_le_0_compat; [apply Qmult_le_0_compat; assumption|assumption]). lra.
Qed.
Definition nonneg (c : constr) : Prop := 0 <= ct_pen_less c /\ 0 <= ct_pen_greater c.
Lemma tighten_one_facts o lg count y gap tv ts i c c' : sensible o -> 0 <= lg (count i) -> 0 <= tv -> 0 <= ts ->
  tighten_one o lg count y gap tv ts (i, c) = Some c' -> repriced c c' /\ not_cheaper c c'.
Proof.
  intros S L Tv Ts. unfold tighten_one. cbn [fst snd]. pose proof (raw_nonneg c y) as V.
  pose proof (fun d => delta_nonneg o lg gap tv ts (count i) (raw_violation c y) d S L Tv Ts V) as D. destruct S as (_ & S2 & _).
  destruct (delta o lg gap tv ts (count i) (raw_violation c y)) as [d|].
  - specialize (D d eq_refl). assert (0 <= co_tight o * d) by now apply Qmult_le_0_compat.
    destruct (ct_le c && _); [intros E; assert (c' = c_with_pen c (ct_pen_less c + co_tight o * d) (ct_pen_greater c)) by congruence; subst c'; split; [apply with_pen_repriced|split; cbn; lra]|].
    destruct (ct_ge c && _); intros E; [assert (c' = c_with_pen c (ct_pen_less c) (ct_pen_greater c + co_tight o * d)) by congruence; subst c'; split; [apply with_pen_repriced|split; cbn; lra]|].
    assert (c' = c) by congruence. subst c'. split; [repeat split|split; lra].
  - destruct (ct_le c && _); [discriminate|]. destruct (ct_ge c && _); [discriminate|]. intros E. assert (c' = c) by congruence. subst c'. split; [repeat split|split; lra].
Qed.
Lemma group_max_ge proxy ics p i c : In (i, c) ics -> proxy i = p -> ct_pen_less c <= group_max proxy ics p /\ ct_pen_greater c <= group_max proxy ics p.
Proof.
  intros H E. unfold group_max. generalize 0 as a. revert H. induction ics as [|[j d] ics IH]; intros H a; [destruct H|]. cbn [fold_left fst snd].
  assert (Mono : forall ics a b, a <= b -> a <= fold_left (fun q (ic : nat * constr) => if Nat.eqb (proxy (fst ic)) p then qmax (qmax q (ct_pen_less (snd ic))) (ct_pen_greater (snd ic)) else q) ics b).
  { clear. induction ics as [|ic ics IH]; intros a b L; cbn [fold_left]; [exact L|]. apply IH. destruct (Nat.eqb (proxy (fst ic)) p); [|exact L].
    pose proof (qmax_ge_l b (ct_pen_less (snd ic))). pose proof (qmax_ge_l (qmax b (ct_pen_less (snd ic))) (ct_pen_greater (snd ic))). lra. }
  destruct H as [H|H].
  - injection H as -> ->. rewrite E, Nat.eqb_refl. split; apply Mono.
    + pose proof (qmax_ge_r a (ct_pen_less c)). pose proof (qmax_ge_l (qmax a (ct_pen_less c)) (ct_pen_greater c)). lra.
    + apply qmax_ge_r.
  - now apply IH.
Qed.
Lemma group_facts proxy cs : Forall2 repriced cs (group_penalties proxy cs) /\ Forall2 not_cheaper cs (group_penalties proxy cs).
Proof.
  unfold group_penalties. split; apply forall2_numbered; apply forall2_map; intros [i c] H; cbn [fst snd]; [apply with_pen_repriced|].
  destruct (group_max_ge proxy (numbered cs) (proxy i) i c H eq_refl). split; assumption.
Qed.
Lemma cap_facts cap cs : Forall2 repriced cs (map (cap_one cap) cs).
Proof. apply forall2_map. intros. apply with_pen_repriced. Qed.
Lemma tighten_facts o lg count y gap cs cs' ex : sensible o -> log_like lg -> counted count cs -> Forall (priced_within (co_initial o)) cs ->
  tighten_penalties o lg count y gap cs = Some (cs', ex) ->
  Forall2 repriced cs cs' /\ Forall2 not_cheaper cs cs' /\ Forall (priced_within (co_initial o)) cs'.
Proof.
  intros S L C P H. unfold tighten_penalties in H.
  destruct (all_some (map (tighten_one o lg count y gap (sum_violation count y cs) (sum_squared lg count y cs)) (numbered cs))) as [cs1|] eqn:E; [|discriminate].
  apply all_some_in in E.
  assert (F1 : Forall2 (fun c c' => repriced c c' /\ not_cheaper c c') cs cs1).
  { apply forall2_numbered. refine (forall2_impl _ _ _ _ _ E). intros [i c] c' Hin K. cbn [snd]. apply numbered_in in Hin.
    refine (tighten_one_facts o lg count y gap _ _ i c c' S (lg_nonneg lg _ L (C i c Hin)) (sum_violation_nonneg count y cs C) (sum_squared_nonneg lg count y cs L C) K). }
  set (cs2 := if co_group o then group_penalties (co_proxy o) cs1 else cs1) in H.
  assert (F2 : Forall2 (fun c c' => repriced c c' /\ not_cheaper c c') cs cs2).
  { unfold cs2. destruct (co_group o); [|exact F1]. destruct (group_facts (co_proxy o) cs1) as [G1 G2].
    assert (G : Forall2 (fun c c' => repriced c c' /\ not_cheaper c c') cs1 (group_penalties (co_proxy o) cs1)).
    { clear - G1 G2. induction G1; inversion G2; subst; constructor; auto. }
    refine (forall2_trans _ _ _ _ _ _ _ F1 G). intros a b c [A1 A2] [B1 B2]. split; [eapply repriced_trans; eassumption|]. destruct A2, B2. split; lra. }
  assert (Hc : cs' = map (cap_one (co_initial o)) cs2) by congruence. subst cs'. clear H E F1. clearbody cs2. rewrite Forall_forall in P.
  assert (K : Forall2 (fun c c' => repriced c c' /\ not_cheaper c c' /\ priced_within (co_initial o) c') cs (map (cap_one (co_initial o)) cs2)).
  { clear - F2 P. induction F2 as [|c c' l l' [A1 [A2 A3]] F IH]; cbn [map]; constructor.
    - split; [eapply repriced_trans; [exact A1|apply with_pen_repriced]|]. destruct (P c (or_introl eq_refl)) as [[P1 P2] [P3 P4]].
      unfold not_cheaper, priced_within, cap_one. cbn [c_with_pen ct_pen_less ct_pen_greater].
      pose proof (qmin_le_r (ct_pen_less c') (co_initial o)). pose proof (qmin_le_r (ct_pen_greater c') (co_initial o)).
      pose proof (qmin_glb _ _ _ A2 P2). pose proof (qmin_glb _ _ _ A3 P4). repeat split; lra.
    - apply IH. intros. apply P. now right. }
  split; [refine (forall2_impl _ _ _ _ _ K); intros; tauto|]. split; [refine (forall2_impl _ _ _ _ _ K); intros; tauto|].
  clear - K. induction K; constructor; tauto.
Qed.

(** The tightening is undefined only if every violated constraint has count 0. *)
Lemma tighten_none o lg count y gap cs : log_like lg -> counted count cs -> tighten_penalties o lg count y gap cs = None ->
  (exists c, In c cs /\ EPS < viol c y) /\ (forall i c, nth_error cs i = Some c -> 0 < viol c y -> count i = 0%Z).
Proof.
  intros L C H. unfold tighten_penalties in H.
  destruct (all_some (map (tighten_one o lg count y gap (sum_violation count y cs) (sum_squared lg count y cs)) (numbered cs))) as [cs1|] eqn:E; [discriminate|].
  clear H. apply all_some_none in E as ([i c] & Hin & E). pose proof (proj1 (numbered_in cs i c) Hin) as Hn.
  unfold tighten_one in E. cbn [fst snd] in E.
  assert (V : EPS < viol c y /\ delta o lg gap (sum_violation count y cs) (sum_squared lg count y cs) (count i) (raw_violation c y) = None).
  { destruct (delta o lg gap _ _ (count i) (raw_violation c y)) as [d|]; [destruct (ct_le c && _); [discriminate|]; destruct (ct_ge c && _); discriminate|].
    split; [|reflexivity]. rewrite <- raw_viol. assert (Hp : 0 < EPS) by reflexivity. revert E. unfold raw_violation, ct_le, ct_ge, qmax, qmin. set (v := e_eval (ct_expr c) y).
    destruct (ct_sense c); cbn [andb]; destruct (Qlt_le_dec v 0); destruct (Qlt_le_dec 0 v); try lra;
    destruct (Qlt_le_dec (- v) 0); try lra;
    repeat match goal with |- context [if Qlt_le_dec EPS ?a then true else false] => destruct (Qlt_le_dec EPS a) end; cbn [andb]; intros; try discriminate; try lra. }
  destruct V as [V D]. split; [exists c; split; [eapply nth_error_In; exact Hn|exact V]|].
  unfold delta in D. destruct (Qeq_bool (sum_violation count y cs) 0) eqn:E1.
  - exfalso. apply Qeq_bool_iff in E1. unfold sum_violation in E1. rewrite fold_sum, Qplus_0_l in E1.
    assert (T : raw_violation c y * inject_Z (count i + 1) <= fold_right (fun (x : nat * constr) q => raw_violation (snd x) y * inject_Z (count (fst x) + 1) + q) 0 (numbered cs)).
    { refine (sum_term (fun ic : nat * constr => raw_violation (snd ic) y * inject_Z (count (fst ic) + 1)) (numbered cs) (i, c) _ Hin).
      intros [j d] H. apply numbered_in in H. cbn [fst snd]. apply Qmult_le_0_compat; [apply raw_nonneg|]. change 0 with (inject_Z 0). rewrite <- Zle_Qle. specialize (C j d H). lia. }
    rewrite E1 in T. rewrite raw_viol in T. assert (1 <= inject_Z (count i + 1)) by (change 1 with (inject_Z 1); rewrite <- Zle_Qle; specialize (C i c Hn); lia).
    assert (0 < EPS) by reflexivity. nra.
  - cbn [orb] in D. destruct (Qeq_bool (sum_squared lg count y cs) 0) eqn:E2; [|discriminate]. apply Qeq_bool_iff in E2. unfold sum_squared in E2. rewrite fold_sum, Qplus_0_l in E2.
    intros j d Hj Vd. specialize (C j d Hj) as Cj. destruct (Z.eq_dec (count j) 0) as [|N]; [assumption|]. exfalso.
    pose proof (sum_term _ (numbered cs) (j, d) (squared_terms lg count y cs L C) (proj2 (numbered_in cs j d) Hj)) as T. cbn [fst snd] in T. rewrite E2 in T.
    assert (0 < lg (count j)) by (apply L; lia). rewrite raw_viol in T.
    assert (0 < viol d y * viol d y) by (apply Qmult_lt_0_compat; assumption). assert (0 < viol d y * viol d y * lg (count j)) by (apply Qmult_lt_0_compat; assumption). lra.
Qed.
