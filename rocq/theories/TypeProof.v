(** Proofs for C07 and C08. *)
From Coq Require Import List ZArith QArith Qabs Qround Bool Arith Lia Lqa Permutation.
From Verif Require Import ExprModel ExprSpec ExprProof ConstraintModel ConstraintSpec VariableModel TypeModel TypeSpec.
Import ListNotations.
Local Open Scope Q_scope.

(** ** C07: exactly one flag *)
Lemma cleared_all t : In t cleared.
Proof. destruct t; cbn; intuition. Qed.
Lemma clear_fold l : forall f t, fold_left (fun f t => set_flag f t false) l f t = true -> ~ In t l /\ f t = true.
Proof.
  induction l as [|u l IH]; intros f t H; cbn [fold_left] in H; [split; [intros []|exact H]|].
  apply IH in H. destruct H as [H1 H2]. unfold set_flag in H2. destruct (ctype_eq_dec t u) as [->|N]; [discriminate|].
  split; [|exact H2]. intros [E|I]; [now subst|contradiction].
Qed.
Lemma clear_false st t : ty_flag (clear_type st) t = false.
Proof.
  destruct (ty_flag (clear_type st) t) eqn:E; [|reflexivity]. apply clear_fold in E. destruct E as [H _]. exfalso. apply H, cleared_all.
Qed.
Lemma setup_one x c st u : ty_flag (setup_type x c st) u = true <-> u = fst (classify x c).
Proof.
  unfold setup_type. destruct (classify x c) as [t key] eqn:E. cbn [ty_flag fst]. unfold set_flag.
  destruct (ctype_eq_dec u t) as [->|N]; [tauto|]. rewrite clear_false. split; [discriminate|contradiction].
Qed.
Lemma exactly_one x c st : exists t,
  (forall u, ty_flag (setup_type x c st) u = true <-> u = t) /\ type_name (setup_type x c st) = Some t.
Proof.
  exists (fst (classify x c)). split; [apply setup_one|]. unfold type_name.
  destruct (find (ty_flag (setup_type x c st)) cleared) as [u|] eqn:E.
  - apply find_some in E. destruct E as [_ E]. apply setup_one in E. now subst.
  - exfalso. pose proof (List.find_none _ _ E (fst (classify x c)) (cleared_all _)) as H.
    rewrite (proj2 (setup_one x c st _) eq_refl) in H. discriminate.
Qed.
Lemma setup_forgets x c st st' : (forall t, ty_flag (setup_type x c st) t = ty_flag (setup_type x c st') t) /\
  ty_key (setup_type x c st) = ty_key (setup_type x c st').
Proof.
  split.
  - intros t. apply eq_true_iff_eq. now rewrite !setup_one.
  - unfold setup_type. destruct (classify x c) as [t key]. cbv zeta. cbn [ty_key]. reflexivity.
Qed.

(** ** C08 *)
Lemma qe_iff a b : qe a b = true <-> a == b. Proof. apply Qeq_bool_iff. Qed.
Lemma qe_false a b : qe a b = false -> ~ a == b. Proof. apply Qeq_bool_neq. Qed.
Lemma inj_eq a b : (a = b)%Z <-> inject_Z a == inject_Z b.
Proof. split; [intros ->; reflexivity|apply inject_Z_injective]. Qed.
Lemma inj_le a b : (a <= b)%Z <-> inject_Z a <= inject_Z b.
Proof. rewrite Zle_Qle. reflexivity. Qed.

Lemma sat_val c y : satisfies c y <-> holds (ex_const (ct_expr c) + lin (ex_sens (ct_expr c)) y) (ct_sense c) 0.
Proof. unfold satisfies, holds. destruct (ct_sense c); rewrite eval_lin; reflexivity. Qed.

Lemma csense_eqb_true a b : csense_eqb a b = true -> a = b. Proof. destruct a, b; auto; discriminate. Qed.

Lemma unit_cases a : unit_abs a = true -> a == 1 \/ a == -(1).
Proof.
  unfold unit_abs. intros H. apply Qeq_bool_iff in H. revert H. apply Qabs_case; intros; [left; lra|right; lra].
Qed.
Lemma unit_false a : unit_abs a = false -> ~ Qabs a == 1. Proof. apply Qeq_bool_neq. Qed.

Lemma legal01 x y v : proper_senses x -> admissible (tx_vi x) y ->
  tx_sense x v = VBinary \/ tx_sense x v = VSelection \/ tx_sense x v = VDependentBinary -> (y v = 0 \/ y v = 1)%Z.
Proof.
  intros P A S. destruct (P v S) as [[H1 H2] H3]. destruct (A v) as [A1 A2].
  destruct (vi_fixed (tx_vi x v)); [specialize (H3 eq_refl); rewrite (A1 eq_refl); lia|specialize (A2 eq_refl); lia].
Qed.
Lemma binaryish_cases s : binaryish s = true -> s = VBinary \/ s = VSelection \/ s = VDependentBinary.
Proof. destruct s; cbn; auto; discriminate. Qed.
Lemma zero_one_cases s : zero_one_sense s = true -> s = VBinary \/ s = VSelection.
Proof. destruct s; cbn; auto; discriminate. Qed.

Lemma pair_value c u v a b y : ex_sens (ct_expr c) = [(u, a); (v, b)] ->
  ex_const (ct_expr c) + lin (ex_sens (ct_expr c)) y == a * inject_Z (y u) + b * inject_Z (y v) + ex_const (ct_expr c).
Proof. intros ->. cbn. lra. Qed.

Ltac bools := repeat match goal with
  | H : _ && _ = true |- _ => apply andb_true_iff in H; destruct H
  | H : negb _ = true |- _ => apply negb_true_iff in H
  | H : qe _ _ = true |- _ => apply qe_iff in H
  | H : qe _ _ = false |- _ => apply qe_false in H
  end.

Lemma inject_sub a b : inject_Z (a - b) == inject_Z a - inject_Z b.
Proof. unfold Z.sub. rewrite inject_Z_plus, inject_Z_opp. reflexivity. Qed.

(** Solving for a variable with coefficient 1 or -1. *)
Lemma keyed_rest (c : constr) u a : NoDup (variables c) -> In (u, a) (ex_sens (ct_expr c)) ->
  (a == 1 -> exists r, ~ In u (keys r) /\ incl (keys r) (variables c) /\
     forall y, ex_const (ct_expr c) + lin (ex_sens (ct_expr c)) y == inject_Z (y u) - e_eval r y) /\
  (a == -(1) -> exists r, ~ In u (keys r) /\ incl (keys r) (variables c) /\
     forall y, ex_const (ct_expr c) + lin (ex_sens (ct_expr c)) y == e_eval r y - inject_Z (y u)).
Proof.
  intros ND HI. unfold variables, keys in *. set (s := ex_sens (ct_expr c)) in *. set (k := ex_const (ct_expr c)).
  assert (Hc : coef s u = a) by (unfold coef; now rewrite (in_find s u a ND HI)).
  assert (HE : forall y, k + lin s y == e_eval (mkExpr (sens_erase s u) k) y + a * inject_Z (y u)).
  { intros y. rewrite (lin_erase s u y ND), Hc, eval_lin. cbn [ex_sens ex_const]. lra. }
  assert (Hn : ~ In u (map fst (sens_erase s u))) by now apply notin_erase.
  assert (Hi : incl (map fst (sens_erase s u)) (map fst s)) by (intros w; apply in_erase).
  split; intros Ha.
  - exists (e_neg (mkExpr (sens_erase s u) k)). cbn [e_neg ex_sens]. rewrite keys_map. split; [exact Hn|]. split; [exact Hi|].
    intros y. rewrite HE, Ha, eval_neg. lra.
  - exists (mkExpr (sens_erase s u) k). split; [exact Hn|]. split; [exact Hi|]. intros y. rewrite HE, Ha. lra.
Qed.

Lemma key_choice x (u v : nat) :
  Some (if (tx_name x u <? tx_name x v)%nat then u else v) = Some u \/ Some (if (tx_name x u <? tx_name x v)%nat then u else v) = Some v.
Proof. destruct (_ <? _)%nat; auto. Qed.

Lemma eq_pair_sat c u v a b : ex_sens (ct_expr c) = [(u, a); (v, b)] -> ct_sense c = Equal -> forall y,
  satisfies c y <-> a * inject_Z (y u) + b * inject_Z (y v) + ex_const (ct_expr c) == 0.
Proof. intros Hs He y. rewrite sat_val, He. cbn [holds]. rewrite (pair_value c u v a b y Hs). reflexivity. Qed.

Ltac rewrite_coefs := repeat match goal with
  | H : ?a == _ |- context [?a * _] => rewrite H; clear H
  | H : ?a == ?b |- context [?a] => is_var a; rewrite H; clear H
  end.
Lemma pair_equal_meaning x c t key : proper_senses x -> NoDup (variables c) ->
  b_pair_equal x c = Some (t, key) -> type_meaning x c t key.
Proof.
  intros PS ND. unfold b_pair_equal. destruct (ex_sens (ct_expr c)) as [|[u a] [|[v b] [|]]] eqn:Es; try discriminate.
  destruct (_ && negb (vi_fixed (tx_vi x u)) && _) eqn:E0; [|discriminate]. bools.
  match goal with H : csense_eqb _ _ = true |- _ => apply csense_eqb_true in H; rename H into He end.
  assert (Hv : variables c = [u; v]) by (unfold variables, keys; now rewrite Es).
  pose proof (eq_pair_sat c u v a b Es He) as SV.
  set (k := ex_const (ct_expr c)) in *.
  assert (Xor : forall y, (y u = 0 \/ y u = 1)%Z -> (y v = 0 \/ y v = 1)%Z -> (inject_Z (y u) + inject_Z (y v) == 1 <-> (y u = 1 /\ y v = 0) \/ (y u = 0 /\ y v = 1))%Z).
  { intros y [-> | ->] [-> | ->]; (split; [intros Q; try (vm_compute in Q; discriminate Q); auto|intros [[? ?]|[? ?]]; try discriminate; reflexivity]). }
  assert (Xnor : forall y, (y u = 0 \/ y u = 1)%Z -> (y v = 0 \/ y v = 1)%Z -> (inject_Z (y u) == inject_Z (y v) <-> (y u = 0 /\ y v = 0) \/ (y u = 1 /\ y v = 1))%Z).
  { intros y [-> | ->] [-> | ->]; (split; [intros Q; try (vm_compute in Q; discriminate Q); auto|intros [[? ?]|[? ?]]; try discriminate; reflexivity]). }
  cbv zeta.
  repeat match goal with |- (if ?q then _ else _) = _ -> _ => destruct q eqn:? end;
  intros E; injection E as <- <-; bools; cbn [type_meaning].
  - exists u, v. split; [exact Hv|]. split; [apply key_choice|]. intros y A. rewrite SV, <- Xor by (apply (legal01 x); auto; now apply binaryish_cases).
    rewrite H2, H3, H4. split; lra.
  - exists u, v. split; [exact Hv|]. split; [apply key_choice|]. intros y A. rewrite SV, <- Xor by (apply (legal01 x); auto; now apply binaryish_cases).
    rewrite H2, H3, H4. split; lra.
  - exists u, v. split; [exact Hv|]. split; [apply key_choice|]. intros y A. rewrite SV, <- Xnor by (apply (legal01 x); auto; now apply binaryish_cases).
    rewrite H2, H3, H4. split; lra.
  - exists u, v. split; [exact Hv|]. split; [apply key_choice|]. intros y A. rewrite SV, <- Xnor by (apply (legal01 x); auto; now apply binaryish_cases).
    rewrite H2, H3, H4. split; lra.
  - exists u, v. split; [exact Hv|]. split; [apply key_choice|]. intros y. rewrite SV, inj_eq, inject_Z_opp. rewrite_coefs. split; lra.
  - exists u, v. split; [exact Hv|]. split; [apply key_choice|]. intros y. rewrite SV, inj_eq, inject_Z_opp. rewrite_coefs. split; lra.
  - exists u, v. split; [exact Hv|]. split; [apply key_choice|]. intros y. rewrite SV, inj_eq. rewrite_coefs. split; lra.
  - exists u, v. split; [exact Hv|]. split; [apply key_choice|]. intros y. rewrite SV, inj_eq. rewrite_coefs. split; lra.
  - exists u, v, (- k). split; [exact Hv|]. split; [apply key_choice|]. split; [lra|]. intros y. rewrite SV, inject_Z_plus. rewrite_coefs. split; lra.
  - exists u, v, k. split; [exact Hv|]. split; [apply key_choice|]. split; [lra|]. intros y. rewrite SV, inject_Z_plus. rewrite_coefs. split; lra.
  - exists u, v, (- k). split; [exact Hv|]. split; [apply key_choice|]. split; [lra|]. intros y. rewrite SV, inject_sub. rewrite_coefs. split; lra.
  - exists u, v, k. split; [exact Hv|]. split; [apply key_choice|]. split; [lra|]. intros y. rewrite SV, inject_sub. rewrite_coefs. split; lra.
  - match goal with H : unit_abs a = true |- _ => destruct (unit_cases a H) as [Ha|Ha] end.
    + exists u, v, (- b). rewrite Hv. split; [apply Permutation_refl|]. split; [reflexivity|].
      split; [rewrite Qabs_opp; now apply unit_false|]. intros y. rewrite SV. rewrite_coefs. split; lra.
    + exists u, v, b. rewrite Hv. split; [apply Permutation_refl|]. split; [reflexivity|].
      split; [now apply unit_false|]. intros y. rewrite SV. rewrite_coefs. split; lra.
  - match goal with H : unit_abs b = true |- _ => destruct (unit_cases b H) as [Hb|Hb] end.
    + exists v, u, (- a). rewrite Hv. split; [apply perm_swap|]. split; [reflexivity|].
      split; [rewrite Qabs_opp; now apply unit_false|]. intros y. rewrite SV. rewrite_coefs. split; lra.
    + exists v, u, a. rewrite Hv. split; [apply perm_swap|]. split; [reflexivity|].
      split; [now apply unit_false|]. intros y. rewrite SV. rewrite_coefs. split; lra.
  - assert (Hin : In (u, a) (ex_sens (ct_expr c))) by (rewrite Es; now left).
    destruct (keyed_rest c u a ND Hin) as [K1 K2].
    match goal with H : unit_abs a = true |- _ => destruct (unit_cases a H) as [Ha|Ha] end;
    [destruct (K1 Ha) as (r & R1 & R2 & R3)|destruct (K2 Ha) as (r & R1 & R2 & R3)]; exists u, r;
    (split; [reflexivity|split; [rewrite Hv; now left|split; [exact R1|split; [exact R2|]]]]);
    intros y; rewrite sat_val, He; cbn [holds]; rewrite R3; split; lra.
  - assert (Hin : In (v, b) (ex_sens (ct_expr c))) by (rewrite Es; right; now left).
    destruct (keyed_rest c v b ND Hin) as [K1 K2].
    match goal with H : unit_abs b = true |- _ => destruct (unit_cases b H) as [Hb|Hb] end;
    [destruct (K1 Hb) as (r & R1 & R2 & R3)|destruct (K2 Hb) as (r & R1 & R2 & R3)]; exists v, r;
    (split; [reflexivity|split; [rewrite Hv; right; now left|split; [exact R1|split; [exact R2|]]]]);
    intros y; rewrite sat_val, He; cbn [holds]; rewrite R3; split; lra.
  - exists u, v, a, b, (- k). split; [exact Hv|]. intros y. rewrite SV. split; lra.
  - exists u, v, a, b, (- k). split; [exact Hv|]. intros y. rewrite SV. split; lra.
Qed.

Lemma sense_eqb_true a b : sense_eqb a b = true -> a = b. Proof. destruct a, b; auto; discriminate. Qed.

Lemma pair_inequality_meaning x c t key : 
  b_pair_inequality x c = Some (t, key) -> type_meaning x c t key.
Proof.
  unfold b_pair_inequality. destruct (ex_sens (ct_expr c)) as [|[u a] [|[v b] [|]]] eqn:Es; try discriminate.
  destruct (_ && negb (vi_fixed (tx_vi x u)) && _) eqn:E0; [|discriminate]. bools.
  assert (Hv : variables c = [u; v]) by (unfold variables, keys; now rewrite Es).
  assert (SV : forall y, satisfies c y <-> holds (a * inject_Z (y u) + b * inject_Z (y v) + ex_const (ct_expr c)) (ct_sense c) 0).
  { intros y. rewrite sat_val. unfold holds. destruct (ct_sense c); rewrite (pair_value c u v a b y Es); reflexivity. }
  set (k := ex_const (ct_expr c)) in *.
  destruct (_ && qe a (- b)) eqn:E1; intros E; injection E as <- <-; bools; cbn [type_meaning].
  - match goal with H : sense_eqb _ _ = true |- _ => apply sense_eqb_true in H; rename H into Hse end.
    match goal with H : a == - b |- _ => rename H into Hab end.
    destruct (Qlt_le_dec 0 a) as [Pa|Pa]; [|destruct (Qlt_le_dec a 0) as [Na|Na]].
    + destruct (ct_sense c) eqn:Ec; try discriminate.
      * exists u, v, (- k / a). rewrite Hv. split; [apply Permutation_refl|]. split; [exact Hse|]. intros _ y.
        rewrite SV, inject_sub. cbn [holds].
        assert (Eb : b == - a) by lra. rewrite Eb. split; intros Q.
        -- apply Qle_shift_div_l; [exact Pa|]. lra.
        -- apply (Qmult_le_l _ _ a Pa) in Q. assert (F : a * (- k / a) == - k) by (field; lra). lra.
      * exists v, u, (k / a). rewrite Hv. split; [apply perm_swap|]. split; [now symmetry|]. intros _ y.
        rewrite SV, inject_sub. cbn [holds].
        assert (Eb : b == - a) by lra. rewrite Eb. split; intros Q.
        -- apply Qle_shift_div_l; [exact Pa|]. lra.
        -- apply (Qmult_le_l _ _ a Pa) in Q. assert (F : a * (k / a) == k) by (field; lra). lra.
    + assert (Pb : 0 < b) by lra. destruct (ct_sense c) eqn:Ec; try discriminate.
      * exists v, u, (- k / b). rewrite Hv. split; [apply perm_swap|]. split; [now symmetry|]. intros _ y.
        rewrite SV, inject_sub. cbn [holds]. rewrite Hab. split; intros Q.
        -- apply Qle_shift_div_l; [exact Pb|]. lra.
        -- apply (Qmult_le_l _ _ b Pb) in Q. assert (F : b * (- k / b) == - k) by (field; lra). lra.
      * exists u, v, (k / b). rewrite Hv. split; [apply Permutation_refl|]. split; [exact Hse|]. intros _ y.
        rewrite SV, inject_sub. cbn [holds]. rewrite Hab. split; intros Q.
        -- apply Qle_shift_div_l; [exact Pb|]. lra.
        -- apply (Qmult_le_l _ _ b Pb) in Q. assert (F : b * (k / b) == k) by (field; lra). lra.
    + exists u, v, 0. rewrite Hv. split; [apply Permutation_refl|]. split; [exact Hse|]. intros NZ. exfalso.
      apply (NZ u a); [rewrite Es; now left|lra].
  - destruct (ct_sense c) eqn:Ec; try discriminate.
    + exists u, v, a, b, (- k). split; [exact Hv|]. intros y. rewrite SV. cbn [holds]. split; lra.
    + exists u, v, (- a), (- b), k. split; [exact Hv|]. intros y. rewrite SV. cbn [holds]. split; lra.
Qed.
