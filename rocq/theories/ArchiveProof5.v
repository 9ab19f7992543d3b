(** Proofs for C91, continued: examples. *)
From Coq Require Import List NArith ZArith QArith Bool Lia.
From Verif Require Import ExprModel ExprSpec ConstraintModel VariableModel PresolveModel DependentModel DependentSpec PrepareModel PrepareSpec SolutionModel
  RelaxModel OfferModel ParityModel ArchiveModel ArchiveSpec.
From Verif Require SolverModel PrepareProof6 WholeProof4 WholeProof5 RelaxProof5 LpProof6 OfferProof6 ParityProof3.
Import ListNotations.
Local Open Scope nat_scope.

Definition o_archive := solve_archive 10 (fun l => l) PrepareProof6.p_switches PrepareProof6.p_around (fun _ => true) OfferProof6.o_pairs WholeProof4.w_options (fun _ => 1%Q) (fun _ => 1%Q) (fun _ => 1%Q) (fun q => q)
  WholeProof4.w_lg (fun q => q) true (mkRx None None) OfferProof6.o_inputs 10 PrepareProof6.p_model.
Definition q_archive := solve_archive 10 (fun l => l) WholeProof5.b_switches PrepareProof6.p_around (fun _ => true) [] WholeProof4.w_options LpProof6.norm1 LpProof6.pow1 LpProof6.pow1 (fun _ => 1%Q)
  WholeProof4.w_lg (fun q => q) true (mkRx (RelaxProof5.q_pdlp 1) RelaxProof5.q_lagrange) OfferProof6.q_tries 10 (RelaxProof5.q_model true 0).
Definition o_expected : list ssol := [mkSol [(1, 1%Z); (3, 1%Z); (5, 2%Z); (6, 1%Z)] 2%Q true; mkSol [(1, 1%Z); (3, 1%Z); (5, 3%Z)] 3%Q true].
Definition q_expected : list ssol :=
  [mkSol [(0, 1%Z); (1, 1%Z)] 2%Q true; mkSol [(0, 2%Z); (1, 1%Z)] 3%Q true; mkSol [(0, 1%Z); (1, 10%Z)] 11%Q true; mkSol [(0, 10%Z); (1, 10%Z)] 20%Q true].
Lemma o_idle : prepare_parities (fun l => l) PrepareProof6.p_switches PrepareProof6.p_around PrepareProof6.p_result = PrepareProof6.p_result.
Proof. reflexivity. Qed.

(** ** Not a solution *)
Definition g_wrong : ssol := mkSol [(0, 1%Z); (1, 1%Z); (3, (-1)%Z); (4, 1%Z); (5, (-1)%Z); (6, 1%Z)] (-(1))%Q true.
Lemma g_archived : solve_archive 10 (fun l => l) ParityProof3.g_switches PrepareProof6.p_around (fun _ => true) [] WholeProof4.w_options (fun _ => 1%Q) (fun _ => 1%Q) (fun _ => 1%Q) (fun q => q)
  WholeProof4.w_lg (fun q => q) true (mkRx None None) (ParityProof3.g_inputs [0; 0; 4; 7]) 10 (ParityProof3.g_model 1) = Some (Ok [g_wrong]).
Proof. vm_compute. reflexivity. Qed.
Lemma g_no_solution x : lists 7 x g_wrong -> ~ solves (ParityProof3.g_model 1) x.
Proof.
  intros [H _] S. pose proof (proj1 (H 0 1%Z) (or_introl eq_refl)) as (_ & X0 & _).
  pose proof (proj1 (H 6 1%Z) (or_intror (or_intror (or_intror (or_intror (or_intror (or_introl eq_refl))))))) as (_ & X6 & _).
  pose proof (sv_cons _ _ S (c_setup (mkExpr [(0, 1%Q); (6, 1%Q)] (-(1))%Q) Less (is01_of ParityProof3.g_vars))) as C.
  assert (I : In (c_setup (mkExpr [(0, 1%Q); (6, 1%Q)] (-(1))%Q) Less (is01_of ParityProof3.g_vars)) (ds_cons (ParityProof3.g_model 1))).
  { cbn [ds_cons ParityProof3.g_model ParityProof3.g_cons]. apply in_app_iff. right. right. left. reflexivity. }
  specialize (C I eq_refl). cbn in C. rewrite X0, X6 in C. vm_compute in C. now apply C.
Qed.

(** ** The answer is not in the archive *)
Definition missing (n : nat) (u : option (outcome (SolverModel.outcome (SolverModel.answer * SolverModel.run)))) (l : list ssol) : bool :=
  match u with
  | Some (Ok (SolverModel.Done (an, _))) => SolverModel.an_feasible an && negb (existsb (fun q => forallb (fun v => existsb (fun p => (fst p =? v) && (snd p =? SolverModel.an_x an v)%Z) (so_vars q) || (SolverModel.an_x an v =? 0)%Z) (seq 0 n)) l)
  | _ => false
  end.
Lemma missing_ok n u l : missing n u l = true -> exists an rn, u = Some (Ok (SolverModel.Done (an, rn))) /\ SolverModel.an_feasible an = true /\ forall q, In q l -> ~ lists n (SolverModel.an_x an) q.
Proof.
  unfold missing. destruct u as [[[[an rn]| |]| |]|]; try discriminate. intros H. apply andb_true_iff in H as [F H]. apply negb_true_iff in H. exists an, rn. split; [reflexivity|]. split; [exact F|].
  intros q I [Li _]. assert (K : existsb (fun q => forallb (fun v => existsb (fun p => (fst p =? v) && (snd p =? SolverModel.an_x an v)%Z) (so_vars q) || (SolverModel.an_x an v =? 0)%Z) (seq 0 n)) l = true); [|congruence].
  apply existsb_exists. exists q. split; [exact I|]. apply forallb_forall. intros v Hv. apply in_seq in Hv. apply orb_true_iff.
  destruct (Z.eq_dec (SolverModel.an_x an v) 0) as [E|E]; [right; now apply Z.eqb_eq|]. left. apply existsb_exists. exists (v, SolverModel.an_x an v). split; [apply Li; repeat split; [lia|exact E]|].
  cbn [fst snd]. now rewrite Nat.eqb_refl, Z.eqb_refl.
Qed.
Lemma o_missing : missing 7 OfferProof6.o_solved o_expected = true.
Proof. vm_compute. reflexivity. Qed.
