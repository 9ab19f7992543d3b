(** Examples for C79: three parity equations in x0, x1, x2 and the keys k3, k4, k5, and
    x0 + x6 <= 1. *)
From Coq Require Import List NArith ZArith QArith Qabs Bool Arith Lia Lqa.
From Verif Require Import ExprModel ExprSpec ExprProof ConstraintModel ConstraintSpec VariableModel TypeModel TypeSpec PresolveModel PresolveSpec
  DuplicateModel DependentModel DependentSpec SelectionModel SelectionSpec BinMatModel PrepareModel PrepareSpec EvalModel TabuModel LoopModel WholeModel WholeSpec.
From Verif Require Import SolutionModel SolverModel SolverSpec RelaxModel RelaxSpec OfferModel OfferSpec ParityModel ParitySpec.
From Verif Require Import PrepareProof6 WholeProof4 ParityProof.
From Verif Require OfferProof6.
Import ListNotations.
Local Open Scope nat_scope.

Definition g_vars : vars := fun v => if (v <? 3) || (v =? 6) then mkVar 0 0 1 true false VBinary false true
  else if v <? 6 then mkVar 0 (-5) 5 true false VInteger true true else pv 0 0.
Definition g_equation (l : list (nat * Z)) (k : Z) : constr := c_setup (mkExpr (map (fun p => (fst p, inject_Z (snd p))) l) (inject_Z k)) Equal (is01_of g_vars).
Definition g_first : list constr := [g_equation [(0, 1%Z); (1, 1%Z); (3, 2%Z)] 0; g_equation [(1, 1%Z); (2, 1%Z); (4, (-2)%Z)] 1].
Definition g_third (a : Z) : constr := g_equation [(0, 1%Z); (1, a); (2, 1%Z); (5, 2%Z)] 0.
(** [a]: the coefficient of x1 in the third equation. *)
Definition g_cons (a : Z) : list constr := g_first ++ [g_third a; c_setup (mkExpr [(0, 1%Q); (6, 1%Q)] (-(1))%Q) Less (is01_of g_vars)].
Definition g_model (a : Z) : dstate := mkD 7 g_vars (g_cons a) (mkExpr [(6, (-(1))%Q)] 0%Q) [] (fun _ => None).
Definition g_switches : switches := mkSw true false false false false (fun _ => false) Off true.
Definition g_result (a : Z) : dstate * list sel := ok_or (prepare 10 g_switches p_around true (g_model a)) (g_model a, []).
Lemma g_result_eq a : a = 1%Z \/ a = (-1)%Z -> prepare 10 g_switches p_around true (g_model a) = Some (Ok (g_result a)).
Proof. intros Ha. unfold g_result. destruct Ha as [-> | ->]; (destruct (prepare 10 _ _ _ _) as [[r| |]|] eqn:E; [reflexivity| | |]); exfalso; vm_compute in E; discriminate E. Qed.
Lemma g_bounds v : (va_lower (g_vars v) <= 0 <= va_upper (g_vars v))%Z.
Proof. do 7 (destruct v as [|v]; [vm_compute; split; discriminate|]). vm_compute; split; discriminate. Qed.
Lemma g_proper a : a = 1%Z \/ a = (-1)%Z -> proper_model (g_model a).
Proof.
  intros Ha. constructor; cbn [g_model ds_dep ds_exprs ds_cons ds_vars ds_obj].
  - constructor; cbn [g_model ds_dep ds_exprs ds_cons ds_vars ds_obj ds_number]; try discriminate.
    + apply nodup_b_ok. reflexivity.
    + intros c I. cbn [g_cons g_first app In] in I. destruct I as [<-|[<-|[<-|[<-|[]]]]]; (split; [apply nodup_b_ok; reflexivity|]); intros v J; cbn in J; lia.
    + intros e [].
    + intros v. split; [contradiction|]. intros [_ [E|E]]; exfalso; revert E; (do 7 (destruct v as [|v]; [vm_compute; discriminate|])); vm_compute; discriminate.
  - reflexivity.
  - reflexivity.
  - intros c I. cbn [g_cons g_first app In] in I. destruct I as [<-|[<-|[<-|[<-|[]]]]]; reflexivity.
  - apply tame_b_ok. destruct Ha as [-> | ->]; vm_compute; reflexivity.
  - intros v _. do 7 (destruct v as [|v]; [vm_compute; split; reflexivity|]). vm_compute; split; reflexivity.
  - intros v F. exfalso. revert F. do 7 (destruct v as [|v]; [vm_compute; discriminate|]). vm_compute; discriminate.
  - intros v. do 7 (destruct v as [|v]; [vm_compute; (split; [discriminate|]); (split; [intros [E|[E|E]]; first [discriminate E|split; discriminate]|discriminate])|]).
    vm_compute; (split; [discriminate|]); (split; [intros [E|[E|E]]; first [discriminate E|split; discriminate]|discriminate]).
  - intros c I. split.
    + intros F. apply (flags_b_ok (g_cons a)); [destruct Ha as [-> | ->]; vm_compute; reflexivity|exact I| |exact F].
      cbn [g_cons g_first app In] in I. destruct I as [<-|[<-|[<-|[<-|[]]]]]; reflexivity.
    + cbn [g_cons g_first app In] in I. destruct I as [<-|[<-|[<-|[<-|[]]]]]; vm_compute; intros F; try discriminate; intros v J; repeat (destruct J as [<-|J]; [now left|]); destruct J.
  - apply decided_zero; [exact g_bounds|destruct Ha as [-> | ->]; vm_compute; reflexivity].
Qed.

Lemma g_calm a : a = 1%Z \/ a = (-1)%Z -> calm_rounds g_switches p_around true (g_model a) /\ calm_sets g_switches p_around true (g_model a).
Proof. intros _. split; [intros fuel s1 _ _ X; discriminate X|intros fuel s1 s2 _ _ _ X; discriminate X]. Qed.
Definition g_point (a : Z) (v : nat) : Z := match v with 0 | 1 | 4 => 1%Z | 3 => (-1)%Z | 5 => if (a =? 1)%Z then (-1)%Z else 0%Z | _ => 0%Z end.
Lemma g_feasible a : a = 1%Z \/ a = (-1)%Z -> solves (g_model a) (g_point a).
Proof.
  intros Ha. constructor; cbn [g_model ds_dep ds_exprs ds_cons ds_vars ds_obj]; [| |discriminate].
  - intros v _. destruct Ha as [-> | ->]; (do 7 (destruct v as [|v]; [vm_compute; split; discriminate|])); vm_compute; split; discriminate.
  - intros c I _. cbn [g_cons g_first app In] in I. destruct Ha as [-> | ->]; destruct I as [<-|[<-|[<-|[<-|[]]]]]; vm_compute; first [reflexivity|discriminate].
Qed.
Lemma g_settled a : a = 1%Z \/ a = (-1)%Z -> settled (g_result a).
Proof. intros Ha. destruct Ha as [-> | ->]; (apply settled_b_ok; [intros v _; vm_compute; reflexivity|vm_compute; reflexivity]). Qed.
Lemma g_searchable a : a = 1%Z \/ a = (-1)%Z -> searchable p_around (g_result a).
Proof. intros Ha. destruct Ha as [-> | ->]; (apply OfferProof6.searchable_ok; vm_compute; reflexivity). Qed.

Definition apart_b (l : list (constr * nat)) : bool := forallb (fun p => forallb (fun q => negb (existsb (Nat.eqb (snd p)) (keys (ct_expr (fst q)))) || (snd p =? snd q)) l) l.
Lemma apart_b_ok l : apart_b l = true -> keys_apart l.
Proof.
  unfold apart_b. rewrite forallb_forall. intros H c k c' k' I I' J. specialize (H _ I). rewrite forallb_forall in H. specialize (H _ I'). cbn [fst snd] in H.
  apply orb_true_iff in H as [H|H]; [|apply Nat.eqb_eq, H]. exfalso. apply negb_true_iff in H. assert (E : existsb (Nat.eqb k) (keys (ct_expr c')) = true) by (apply existsb_exists; exists k; split; [exact J|apply Nat.eqb_refl]). congruence.
Qed.
Definition plus_b (l : list (constr * nat)) : bool := forallb (fun p => forallb (fun q => (fst q =? snd p) || Qeq_bool (snd q) 1) (ex_sens (ct_expr (fst p)))) l.
Lemma plus_b_ok l : plus_b l = true -> all_plus l.
Proof.
  unfold plus_b. rewrite forallb_forall. intros H c k v a I J N. specialize (H _ I). rewrite forallb_forall in H. specialize (H _ J). cbn [fst snd] in H.
  apply orb_true_iff in H as [H|H]; [apply Nat.eqb_eq in H; contradiction|apply Qeq_bool_iff, H].
Qed.
Definition g_items (a : Z) : list (constr * nat) := parity_items p_around (fst (g_result a)).
Lemma g_apart a : a = 1%Z \/ a = (-1)%Z -> keys_apart (g_items a).
Proof. intros Ha. destruct Ha as [-> | ->]; (apply apart_b_ok; vm_compute; reflexivity). Qed.
Lemma g_plus : all_plus (g_items 1).
Proof. apply plus_b_ok. vm_compute. reflexivity. Qed.
Lemma g_force a : a = 1%Z \/ a = (-1)%Z -> in_force (fst (g_result a)) (g_items a).
Proof. intros Ha. left. intros v. destruct Ha as [-> | ->]; vm_compute; reflexivity. Qed.

(** What the step fixes. *)
Definition fixings (r : dstate * list sel) : list (option Z) := map (fun v => if va_fixed (ds_vars (fst r) v) then Some (va_value (ds_vars (fst r) v)) else None) (seq 0 (ds_number (fst r))).
Definition same (l : list nat) : list nat := l.
Definition g_parities (a : Z) : dstate * list sel := prepare_parities same g_switches p_around (g_result a).
Lemma g_fixings : fixings (g_result 1) = [None; None; None; None; None; None; None] /\
  fixings (g_parities 1) = [Some 1; Some 1; Some 0; Some (-1); Some 1; Some (-1); None]%Z.
Proof. split; vm_compute; reflexivity. Qed.
Lemma g_lost z : ~ meets (g_parities (-1)) z.
Proof.
  intros [[R C _] _].
  assert (R0 : within (ds_vars (fst (g_parities (-1))) 0) (z 0)) by (apply R; vm_compute; reflexivity).
  assert (R1 : within (ds_vars (fst (g_parities (-1))) 1) (z 1)) by (apply R; vm_compute; reflexivity).
  assert (R2 : within (ds_vars (fst (g_parities (-1))) 2) (z 2)) by (apply R; vm_compute; reflexivity).
  assert (R5 : within (ds_vars (fst (g_parities (-1))) 5) (z 5)) by (apply R; vm_compute; reflexivity).
  assert (E : exists c, nth_error (ds_cons (fst (g_parities (-1)))) 2 = Some c /\ ct_enabled c = true /\ ct_sense c = Equal /\ ct_expr c = ct_expr (g_third (-1))).
  { destruct (nth_error (ds_cons (fst (g_parities (-1)))) 2) as [c|] eqn:E; [|vm_compute in E; discriminate E]. exists c. split; [reflexivity|]. vm_compute in E. injection E as <-. repeat split. }
  destruct E as (c & N & En & Se & Ex). specialize (C c (nth_error_In _ _ N) En). unfold satisfies in C. rewrite Se, Ex in C.
  vm_compute in R0, R1, R2, R5. unfold holds in C. cbn in C. rewrite R0, R1, R2, R5 in C. vm_compute in C. discriminate C.
Qed.

(** Three of the equations switched off by the user. *)
Definition h_model : dstate := mkD 7 g_vars (map disable (g_first ++ [g_third 1]) ++ [c_setup (mkExpr (map (fun v => (v, 1%Q)) (seq 0 7)) (-(4))%Q) Less (is01_of g_vars)])
  (mkExpr [(2, (-(1))%Q)] 0%Q) [] (fun _ => None).
Definition h_result : dstate * list sel := ok_or (prepare 10 g_switches p_around true h_model) (h_model, []).
Lemma h_result_eq : prepare 10 g_switches p_around true h_model = Some (Ok h_result).
Proof. unfold h_result. destruct (prepare 10 _ _ _ _) as [[r| |]|] eqn:E; [reflexivity| | |]; exfalso; vm_compute in E; discriminate E. Qed.
Definition h_point (v : nat) : Z := match v with 2 => 1%Z | _ => 0%Z end.
Lemma h_meets : solves h_model h_point /\ meets h_result h_point.
Proof.
  split.
  - constructor; cbn [h_model ds_dep ds_exprs ds_cons ds_vars ds_obj]; [| |discriminate].
    + intros v _. (do 7 (destruct v as [|v]; [vm_compute; split; discriminate|])); vm_compute; split; discriminate.
    + intros c I. cbn [map g_first app In] in I. destruct I as [<-|[<-|[<-|[<-|[]]]]]; intros En; try discriminate En; vm_compute; discriminate.
  - split; [constructor|].
    + intros v _. (do 7 (destruct v as [|v]; [vm_compute; split; discriminate|])); vm_compute; split; discriminate.
    + intros c I En. assert (E : forallb (fun c => negb (ct_enabled c) || match ct_sense c with Less => Qle_bool (e_eval (ct_expr c) h_point) 0 | _ => false end) (ds_cons (fst h_result)) = true) by (vm_compute; reflexivity).
      rewrite forallb_forall in E. specialize (E c I). rewrite En in E. cbn [negb orb] in E. unfold satisfies. destruct (ct_sense c); try discriminate. apply Qle_bool_iff, E.
    + intros v k D. exfalso. vm_compute in D. discriminate D.
    + intros t I. exfalso. vm_compute in I. destruct I.
Qed.
Lemma h_cut z : meets (prepare_parities same g_switches p_around h_result) z -> (e_eval (ds_obj h_model) z == 0)%Q.
Proof.
  intros [[R _ _] _]. assert (R2 : within (ds_vars (fst (prepare_parities same g_switches p_around h_result)) 2) (z 2)) by (apply R; vm_compute; reflexivity). vm_compute in R2.
  cbn. rewrite R2. reflexivity.
Qed.

(** ** A search that loses count *)
Definition pick (l : list nat) : choice := mkCk OfferProof6.o_accept (fun _ => true) [] l.
(** One round: the moves with the given positions on the list are made first, then the
    search goes on. *)
Definition g_round (ms : list nat) : ground := mkGd false w_loptions (map (fun i => (pick [i], fun _ => 0%Z)) ms)
  [mkDr false (pick (seq 0 20)) true (fun v => if v =? 4 then 1%Z else 0%Z) (fun _ => 1%Z)] 1 1 1 0.
Definition g_inputs (ms : list nat) : ninputs := mkNi None w_control 2 (-(100))%Q [g_round ms].
Definition g_solved (ms : list nat) := p_solve_model 10 same g_switches p_around (fun _ => true) [] w_options (fun _ => 1%Q) (fun _ => 1%Q) (fun _ => 1%Q) (fun q => q)
  w_lg (fun q => q) true (mkRx None None) (g_inputs ms) (g_model 1).
Lemma g_driven ms : driven (g_result 1) (g_inputs ms).
Proof.
  constructor; [discriminate| |discriminate]. intros g [<-|[]]. split; [discriminate|]. split.
  - intros c d I. apply in_map_iff in I as (i & E & _). injection E as <- _. intros k m [].
  - intros d [<-|[]]. split; [intros k m []|]. apply OfferProof6.targets_b_ok. vm_compute. reflexivity.
Qed.
Definition missed (o : option (PresolveModel.outcome (SolverModel.outcome (answer * run)))) : bool :=
  match o with
  | Some (Ok (Done (an, rn))) => negb (an_feasible an) && existsb (fun y => forallb (fun v => (y v =? g_point 1 v)%Z) (seq 0 7)) (visited rn)
  | _ => false
  end.
Lemma missed_ok o : missed o = true -> exists an rn y, o = Some (Ok (Done (an, rn))) /\ an_feasible an = false /\ In y (visited rn) /\ forall v, v < 7 -> y v = g_point 1 v.
Proof.
  destruct o as [[[[an rn]| |]| |]|]; cbn [missed]; try discriminate. intros H. apply andb_true_iff in H as [H1 H2]. apply negb_true_iff in H1. apply existsb_exists in H2 as (y & I & H2).
  rewrite forallb_forall in H2. exists an, rn, y. split; [reflexivity|]. split; [exact H1|]. split; [exact I|]. intros v L. apply Z.eqb_eq, H2, in_seq. lia.
Qed.
Lemma g_missed : missed (g_solved [0; 0; 4; 7]) = true.
Proof. vm_compute. reflexivity. Qed.
Lemma g_shown : shown 7 (g_solved [0; 0; 4; 7]) = Some ([1; 1; 0; -1; 1; -1; 1]%Z, (-(1))%Q, 1%Q, false, 7) /\
  shown 7 (g_solved []) = Some ([1; 1; 0; -1; 1; -1; 0]%Z, 0%Q, 0%Q, true, 3).
Proof. split; vm_compute; reflexivity. Qed.
