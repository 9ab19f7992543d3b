(** Proofs for C77, continued: chain moves; the examples. *)
From Coq Require Import List NArith ZArith QArith Permutation Bool Arith Lia.
From Verif Require Import ExprModel ExprSpec ConstraintModel VariableModel TypeModel PresolveModel DuplicateModel DependentModel DependentSpec
  SelectionModel SelectionSpec PrepareModel PrepareSpec EvalModel EvalSpec EvalSpec2 MoveModel MoveSpec SolutionModel TabuModel LoopModel LoopSpec LocalModel LocalSpec
  LagrangeModel ControllerModel ControllerSpec SolverModel SolverSpec WholeModel WholeSpec RelaxModel RelaxSpec OfferModel OfferSpec.
From Verif Require Import MoveProof MoveProof3 SelectionProof3 PrepareProof6 WholeProof WholeProof2 OfferProof OfferProof2 OfferProof3 OfferProof4 OfferProof5.
From Verif Require WholeProof4 WholeProof5 RelaxProof5 ScreenModel.
Import ListNotations.
Local Open Scope nat_scope.

(** ** Chain moves *)
Lemma chained r addr linkable overlap p q m : chain_ok r p -> chain_ok r q -> In m (chain_moves addr linkable overlap p q) -> chain_ok r m.
Proof.
  intros [_ P] [_ Q] I. unfold chain_moves in I. destruct linkable; [|destruct I]. cbv zeta in I.
  set (l := if (front_addr addr p <? front_addr addr q)%N then p ++ q else q ++ p) in *.
  destruct (overlap l && negb (has_duplicate l)) eqn:E; [|destruct I]. apply andb_true_iff in E as [_ E]. apply negb_true_iff in E. apply duplicate_false in E.
  assert (L : forall v a, In (v, a) l -> v < ds_number (fst r) /\ va_sense (ds_vars (fst r) v) = VBinary /\ (a = 0 \/ a = 1)%Z).
  { intros v a J. unfold l in J. destruct (_ <? _)%N; apply in_app_iff in J as [J|J]; auto. }
  destruct I as [<-|[<-|[]]]; [split; [exact E|exact L]|]. split.
  - unfold complement. rewrite map_map. cbn [fst]. exact E.
  - intros v a J. unfold complement in J. apply in_map_iff in J as ([w b] & K & J). cbn [fst snd] in K. assert (w = v) by congruence. assert (a = (1 - b)%Z) by congruence. subst w a. destruct (L v b J) as (L1 & L2 & L3). split; [exact L1|]. split; [exact L2|]. lia.
Qed.
Lemma id_mod k i : k < 17 -> id_of k i mod 17 = k.
Proof. intros H. unfold id_of. rewrite Nat.mul_comm, Nat.mod_add by discriminate. apply Nat.mod_small, H. Qed.
Lemma part_id nb c x k g integer l t : k < 17 -> part nb c x k g (as_single nb integer) = Some l \/ part nb c x k g (as_multi nb) = Some l -> In t l -> tm_id t mod 17 = k.
Proof.
  intros Hk E I.
  assert (X : forall make ids ms, (forall id m, tm_id (make id m) = id) -> (forall id, In id ids -> id mod 17 = k) -> In t (shown make ids ms) -> tm_id t mod 17 = k).
  { intros make ids ms M D J. unfold shown in J. apply in_flat_map in J as ([id [m f]] & J & J'). cbn [fst snd] in J'. destruct (f =? 0)%Z; [destruct J'|]. destruct J' as [<-|[]]. rewrite M. exact (D id (in_combine_l _ _ _ _ J)). }
  assert (D : forall A (ms : list A) id, In id (ids_of k ms) -> id mod 17 = k) by (intros A ms id J; apply in_map_iff in J as (i & <- & _); exact (id_mod k i Hk)).
  unfold part in E. destruct (ck_enabled c k); [|destruct E as [E|E]; injection E as <-; destruct I]. destruct (gen_update _ _ _ _) as [ms|]; [|destruct E; discriminate].
  destruct E as [E|E]; injection E as <-; (eapply X; [|exact (D _ ms)|exact I]); intros id m; [|reflexivity]. unfold as_single. destruct m as [|[v a] [|]]; reflexivity.
Qed.
Lemma selection_id nb ac x t : In t (selection_moves nb ac x) -> tm_id t mod 17 = 2.
Proof.
  intros I. unfold selection_moves in I. apply in_flat_map in I as ([i v] & _ & I). unfold selection_move in I. cbn [snd fst] in I. destruct (sel_of _ _); [|destruct I]. destruct (selected_in _ _) as [u|]; [|destruct I].
  destruct (Nat.eqb u v); [destruct I|]. destruct (selection_wanted _ _); [|destruct I]. destruct I as [<-|[]]. cbn [tm_id]. apply id_mod. lia.
Qed.
Lemma special_small k t : In (k, t) special_types -> 3 <= k <= 14.
Proof. unfold special_types. cbn [In]. intros H. repeat (destruct H as [H|H]; [injection H as <- _; lia|]). destruct H. Qed.

Section Chains.
  Context (su : surroundings) (o : search_options) (mi : bool) (s : dstate) (r : dstate * list sel) (on : ctype -> bool) (pairs : list (nat * nat)).
  Hypothesis Rd : search_ready mi s r.
  Hypothesis Fp : flippable_pairs r pairs.
  Let nb := setup_neighborhood on pairs su r.
  Lemma plain_flips m : (forall v a, In (v, a) m -> plain r v a) -> (forall v a, In (v, a) m -> va_sense (ds_vars (fst r) v) = VBinary) -> NoDup (map fst m) -> chain_ok r m.
  Proof.
    intros P B N. split; [exact N|]. intros v a I. destruct (P v a I) as (L & _ & Q). pose proof (B v a I) as S. split; [exact L|]. split; [exact S|].
    destruct Q as [[_ Q]|[Q _]]; [lia|congruence].
  Qed.
  Lemma offer_flips c x ms t : choice_ok r c -> good r x -> offer nb c x = Some ms -> In t ms -> In (tm_id t mod 17) [0; 15; 16] -> chain_ok r (tm_alts t).
  Proof.
    intros Ck G E I K. unfold offer in E. destruct (concat_options_in _ _ _ E I) as (l & Jl & It). clear E I.
    apply in_app_iff in Jl as [Jl|Jl]; [|apply in_app_iff in Jl as [Jl|Jl]].
    - destruct Jl as [Jl|[Jl|[Jl|[]]]].
      + destruct (in_part _ _ _ _ _ _ _ _ _ _ _ Jl It) as (id & m & Of & ->). pose proof Of as (l' & f & E & I & N). cbn [setup_neighborhood nb nb_binary setup_binary gen_update] in E. injection E as <-.
        apply in_map_iff in I as (v & E & I). apply setup_mutable in I as [I _]. apply of_sense_in in I as [L S]. unfold binary_move in E. cbn [v_with_value va_value] in E.
        assert (m = [(v, (1 - x v)%Z)]) by congruence. subst m. cbn [as_single tm_kind tm_alts]. split; [constructor; [intros []|constructor]|]. intros w a [Q|[]]. assert (v = w) by congruence. assert (a = (1 - x v)%Z) by congruence. subst w a. split; [exact L|]. split; [exact S|].
        destruct G as [[_ V] _]. destruct (V v L) as [B _]. cbn [v_with_value va_value va_sense] in B. destruct (B S); lia.
      + rewrite (part_id nb c x 1 _ true l t ltac:(lia) (or_introl Jl) It) in K. cbn in K. lia.
      + injection Jl as <-. destruct (ck_enabled c 2); [|destruct It]. apply selection_id in It. rewrite It in K. cbn in K. lia.
    - apply in_map_iff in Jl as ([k g] & Jl & Jg). cbn [fst snd] in Jl. cbn [nb nb_special setup_neighborhood] in Jg. apply in_map_iff in Jg as ([k' ty] & Eg & Jg). injection Eg as -> <-. cbn [snd fst] in *.
      apply filter_In in Jg as [Jg _]. apply special_small in Jg. rewrite (part_id nb c x k _ true l t ltac:(lia) (or_intror Jl) It) in K. cbn [In] in K. lia.
    - destruct Jl as [Jl|[Jl|[]]].
      + destruct (ck_enabled c 15); [|injection Jl as <-; destruct It]. cbn [gen_update option_map] in Jl. injection Jl as <-. apply in_shown in It as (id & m & f & J & N & ->).
        apply in_flag_all in J as [J _]. apply in_map_iff in J as ([k m'] & Em & J). cbn [snd] in Em. subst m'. exact (Ck k m J).
      + destruct (in_part _ _ _ _ _ _ _ _ _ _ _ Jl It) as (id & m & Of & ->). destruct (two_flip_plain su r on pairs Fp c x m Of) as [P H]. apply plain_flips; [exact H| |exact P].
        intros v a J. destruct (H v a J) as (_ & _ & [[S _]|[S _]]); [exact S|]. exfalso.
        destruct Of as (l' & f & E & I & N). cbn [setup_neighborhood nb nb_two_flip gen_update] in E. injection E as <-. apply in_flag_all in I as (I & _). apply in_flat_map in I as ([u w] & Ip & I).
        destruct (Fp u w Ip) as [_ Hw]. assert (V : v = u \/ v = w) by (cbn [two_flip_moves fst snd] in I; destruct I as [<-|[<-|[]]]; destruct J as [J|[J|[]]]; injection J as <- _; auto).
        destruct (Hw v V) as [_ [Q|Q]]; rewrite Q in S; discriminate.
  Qed.
End Chains.

(** ** Examples *)
Definition o_accept : accept := mkAccept true true true (fun _ => true) (fun _ => true).
Definition o_choice : choice := mkCk o_accept (fun _ => true) [(0, [(3, 0%Z); (4, 1%Z)])] (seq 0 20).
Definition o_driver : driver := mkDr false o_choice true (fun _ => 3%Z) (fun _ => 1%Z).
Definition o_round : ground := mkGd false WholeProof4.w_loptions [(o_choice, fun _ => 1%Z)] (repeat o_driver 3) 1 1 1 0.
Definition o_inputs : ninputs := mkNi None WholeProof4.w_control 2 (-(100))%Q [o_round; o_round].
Definition o_pairs : list (nat * nat) := [(3, 4)].
Definition o_solved := n_solve_model 10 p_switches p_around (fun _ => true) o_pairs WholeProof4.w_options (fun _ => 1%Q) (fun _ => 1%Q) (fun _ => 1%Q) (fun q => q)
  WholeProof4.w_lg (fun q => q) true (mkRx None None) o_inputs p_model.

Definition searchable_b (su : surroundings) (r : dstate * list sel) : bool :=
  let vs := ds_vars (fst r) in
  forallb (fun v => va_fixed (vs v) || match va_sense (vs v) with VInteger => (va_lower (vs v) <? 0)%Z || (1 <? va_upper (vs v))%Z | _ => true end) (seq 0 (ds_number (fst r))) &&
  forallb (fun t => forallb (fun v => negb (va_fixed (vs v)) || negb (va_value (vs v) =? 1)%Z) (sl_vars t)) (snd r) &&
  nodup_b (map (su_cname su) (seq 0 (length (ds_cons (fst r))))).
Lemma searchable_ok su r : searchable_b su r = true -> searchable su r.
Proof.
  intros H. unfold searchable_b in H. cbv zeta in H. apply andb_true_iff in H as [H H3]. apply andb_true_iff in H as [H1 H2]. rewrite forallb_forall in H1, H2. constructor.
  - intros v L F S. specialize (H1 v ltac:(apply in_seq; lia)). rewrite F, S in H1. cbn [orb] in H1. apply orb_true_iff in H1 as [H1|H1]; apply Z.ltb_lt in H1; auto.
  - intros t v It Iv F. specialize (H2 t It). rewrite forallb_forall in H2. specialize (H2 v Iv). rewrite F in H2. cbn [negb orb] in H2. apply negb_true_iff, Z.eqb_neq in H2. exact H2.
  - apply nodup_b_ok in H3. intros i j Li Lj E. apply (proj1 (NoDup_nth (map (su_cname su) (seq 0 (length (ds_cons (fst r))))) 0) H3).
    + rewrite map_length, seq_length. exact Li.
    + rewrite map_length, seq_length. exact Lj.
    + rewrite !(nth_indep _ 0 (su_cname su 0)) by (rewrite map_length, seq_length; assumption). rewrite !map_nth, !seq_nth by assumption. exact E.
Qed.
Lemma p_searchable : searchable p_around p_result.
Proof. apply searchable_ok. vm_compute. reflexivity. Qed.
Lemma p_pairs : flippable_pairs p_result o_pairs.
Proof. intros u v [E|[]]. injection E as <- <-. split; [discriminate|]. intros w [-> | ->]; (split; [apply Nat.ltb_lt; vm_compute; reflexivity|left; vm_compute; reflexivity]). Qed.
Lemma p_choice : choice_ok p_result o_choice.
Proof.
  intros k m [E|[]]. injection E as <- <-. split; [apply nodup_b_ok; reflexivity|].
  intros v a [E|[E|[]]]; injection E as <- <-; (split; [apply Nat.ltb_lt; vm_compute; reflexivity|]; split; [vm_compute; reflexivity|]); lia.
Qed.
Definition targets_b (r : dstate * list sel) (tg : nat -> Z) : bool :=
  forallb (fun v => match va_sense (ds_vars (fst r) v) with VInteger => (va_lower (ds_vars (fst r) v) <=? tg v)%Z && (tg v <=? va_upper (ds_vars (fst r) v))%Z | _ => true end) (seq 0 (ds_number (fst r))).
Lemma targets_b_ok r tg : targets_b r tg = true -> targets_ok r tg.
Proof.
  unfold targets_b. rewrite forallb_forall. intros H v L S. specialize (H v ltac:(apply in_seq; lia)). rewrite S in H. apply andb_true_iff in H as [H1 H2]. apply Z.leb_le in H1, H2. lia.
Qed.
Lemma p_targets : targets_ok p_result (fun _ => 3%Z).
Proof. apply targets_b_ok. vm_compute. reflexivity. Qed.
Lemma p_driven : driven p_result o_inputs.
Proof.
  constructor; [discriminate| |discriminate]. intros g Hg. assert (g = o_round) as -> by (cbn in Hg; intuition congruence). split; [discriminate|]. split.
  - intros c d [E|[]]. injection E as <- _. exact p_choice.
  - intros d Hd. apply repeat_spec in Hd. subst d. split; [exact p_choice|exact p_targets].
Qed.

(** The minimization of RelaxProof5 with a local search. *)
Definition q_choice : choice := mkCk o_accept (fun _ => true) [] (seq 0 20).
Definition q_driver : sdriver := mkSd false q_choice true (fun _ => 1%Z).
Definition q_tries : ninputs := mkNi (Some (mkSo 5 (-(100))%Q true true, false, repeat q_driver 5)) WholeProof4.w_control 1 (-(100))%Q [].
Definition q_run := n_solve_model 10 WholeProof5.b_switches p_around (fun _ => true) [] WholeProof4.w_options LpProof6.norm1 LpProof6.pow1 LpProof6.pow1 (fun _ => 1%Q)
  WholeProof4.w_lg (fun q => q) true (mkRx (RelaxProof5.q_pdlp 1) RelaxProof5.q_lagrange) q_tries (RelaxProof5.q_model true 0).
Lemma q_searchable : searchable p_around (RelaxProof5.q_result true 0).
Proof. apply searchable_ok. vm_compute. reflexivity. Qed.
Lemma q_anchored : all_anchored (RelaxProof5.q_result true 0).
Proof.
  assert (H : forallb (fun v => existsb (fun c => ct_enabled c && existsb (Nat.eqb v) (keys (ct_expr c))) (ds_cons (fst (RelaxProof5.q_result true 0)))) (seq 0 (ds_number (fst (RelaxProof5.q_result true 0)))) = true)
    by (vm_compute; reflexivity).
  rewrite forallb_forall in H. intros v L _ _. specialize (H v ltac:(apply in_seq; lia)). apply existsb_exists in H as (c & I & H). apply andb_true_iff in H as [E H].
  apply existsb_exists in H as (w & J & Ew). apply Nat.eqb_eq in Ew. subst w. exists c. auto.
Qed.
Lemma q_driven : driven (RelaxProof5.q_result true 0) q_tries.
Proof.
  constructor; [discriminate|intros g []|]. intros o late ds E. cbn [q_tries ni_local] in E. injection E as <- <- <-. split; [exact q_anchored|]. intros d Hd. assert (d = q_driver) as -> by exact (repeat_spec 5 q_driver d Hd).
  split; [intros k m []|]. apply targets_b_ok. vm_compute. reflexivity.
Qed.
Lemma p_good : good p_result (fun v => match v with 3 | 2 | 6 => 1%Z | 5 => 2%Z | _ => 0%Z end).
Proof.
  assert (N : ds_number (fst p_result) = 7) by (vm_compute; reflexivity). assert (S : map sl_vars (snd p_result) = [[2; 0; 1]]) by (vm_compute; reflexivity). split; [split|].
  - intros t It. assert (Ev : sl_vars t = [2; 0; 1]) by (apply (in_map sl_vars) in It; rewrite S in It; destruct It as [It|[]]; congruence). rewrite Ev.
    exists 2. split; [left; reflexivity|]. cbn [v_with_value va_value]. split; [reflexivity|]. clear It Ev N S. intros v [<-|[<-|[<-|[]]]] D; [destruct (D eq_refl)|reflexivity|reflexivity].
  - rewrite N. intros v L. do 7 (destruct v as [|v]; [vm_compute; split; intros E; try discriminate E; try (left; reflexivity); try (right; reflexivity); split; discriminate|]). clear - L. exfalso. lia.
  - intros v. assert (F : forall v, va_fixed (ds_vars (fst p_result) v) = false) by (intros w; do 7 (destruct w as [|w]; [vm_compute; reflexivity|]); vm_compute; reflexivity). rewrite F. discriminate.
Qed.

(** A variable of a selection fixed at 1, with the reductions switched off. *)
Definition f_vars : vars := fun v => if v =? 2 then mkVar 1 0 1 true true VBinary true false else if v <? 3 then pv 0 1 else pv 0 0.
Definition f_model : dstate := mkD 3 f_vars [c_setup (mkExpr [(0, 1%Q); (1, 1%Q); (2, 1%Q)] (-(1))%Q) Equal (is01_of f_vars)] (mkExpr [(0, (-(1))%Q); (1, (-(1))%Q)] 0) [] (fun _ => None).
Definition f_switches : switches := mkSw false false false false false (fun _ => false) Smaller true.
Definition f_round : ground := mkGd false WholeProof4.w_loptions [] (repeat (mkDr false q_choice true (fun _ => 0%Z) (fun _ => 1%Z)) 3) 1 1 1 0.
Definition f_inputs : ninputs := mkNi None WholeProof4.w_control 2 (-(100))%Q [f_round].
Definition f_solved := n_solve_model 10 f_switches p_around (fun _ => true) [] WholeProof4.w_options (fun _ => 1%Q) (fun _ => 1%Q) (fun _ => 1%Q) (fun q => q)
  WholeProof4.w_lg (fun q => q) true (mkRx None None) f_inputs f_model.
Definition f_point (v : nat) : Z := match v with 2 => 1%Z | _ => 0%Z end.
Lemma f_feasible : solves f_model f_point.
Proof.
  constructor; cbn [f_model ds_dep ds_exprs ds_cons ds_vars ds_obj]; [| |discriminate].
  - intros v _. destruct v as [|[|[|v]]]; vm_compute; try reflexivity; split; discriminate.
  - intros c I _. destruct I as [<-|[]]. vm_compute. reflexivity.
Qed.
Definition rejected_with (o : option (PresolveModel.outcome (SolverModel.outcome (answer * run)))) (n : nat) : option (list Z) :=
  match o with Some (Ok (Rejected _ y)) => Some (map y (seq 0 n)) | _ => None end.
Lemma f_rejected : exists rn y, f_solved = Some (Ok (Rejected rn y)) /\ map y (seq 0 3) = [1; 0; 1]%Z.
Proof.
  assert (H : rejected_with f_solved 3 = Some [1; 0; 1]%Z) by (vm_compute; reflexivity). unfold rejected_with in H.
  destruct f_solved as [[[a|rn y|rn]| |]|]; try discriminate. exists rn, y. split; [reflexivity|]. congruence.
Qed.

(** ** The whole *)
Lemma model_eq fuel sw su on pairs o nrm red ext sq lg root m x a s r b : prepare fuel sw su m s = Some (Ok r) -> pdlp_phase nrm red ext sq x m r = Ok b ->
  n_solve_model fuel sw su on pairs o nrm red ext sq lg root m x a s = Some (Ok (n_solve (setup_neighborhood on pairs su r) lg root (search_problem su m r)
    (ScreenModel.naive_dual_bound m (ds_obj (fst r)) (ds_vars (fst r))) b (lagrange_phase x r) a (search_state o m r) mem_setup)).
Proof. intros P B. unfold n_solve_model. rewrite P. cbn [PresolveModel.bind]. rewrite B. reflexivity. Qed.
Lemma model_same fuel sw su on pairs o nrm red ext sq lg root m x a s out : n_solve_model fuel sw su on pairs o nrm red ext sq lg root m x a s = Some (Ok out) ->
  exists a', solve_relaxed fuel sw su o nrm red ext sq lg root m x a' s = Some (Ok out).
Proof.
  unfold n_solve_model, solve_relaxed. destruct (prepare fuel sw su m s) as [[r| |]|]; cbn [PresolveModel.bind]; try discriminate. destruct (pdlp_phase nrm red ext sq x m r) as [b| |]; cbn [PresolveModel.bind]; try discriminate.
  intros E. injection E as <-. match goal with |- context [n_solve ?nb lg root ?p ?nv b ?g a ?s0 ?m0] => destruct (solve_same nb lg root p nv b g a s0 m0) as (a' & _ & ->) end. exists a'. reflexivity.
Qed.
Lemma whole_own fuel sw su on pairs o nrm red ext sq lg root m x a s r b : proper_model s -> (exists y, solves s y) -> calm_rounds sw su m s -> calm_sets sw su m s ->
  prepare fuel sw su m s = Some (Ok r) -> settled r -> searchable su r -> flippable_pairs r pairs -> driven r a ->
  (forall go late clock, rx_lagrange x = Some (go, late, clock) -> (1 <= go_queue go)%Z) -> pdlp_phase nrm red ext sq x m r = Ok b ->
  exists out, n_solve_model fuel sw su on pairs o nrm red ext sq lg root m x a s = Some (Ok out) /\
  match out with
  | Done (an, rn) => orderly (ni_limit a) rn /\ (forall y, In y (visited rn) -> valid r y) /\ right_answer (search_problem su m r) (search_state o m r) rn an /\
                     (an_feasible an = true -> solution_of s (wo_defined o) an)
  | Rejected _ _ => False
  | NotANumber rn => orderly (ni_limit a) rn /\ (forall y, In y (visited rn) -> valid r y) /\ (log_like lg -> unpriceable (search_state o m r) rn)
  end.
Proof.
  intros P Fe C1 C2 Pr St Se Fp Dv Q B. eexists. split; [exact (model_eq _ _ _ _ _ _ _ _ _ _ _ _ _ _ _ _ _ _ Pr B)|].
  pose proof (prepare_search fuel sw su m s r P Fe C1 C2 Pr) as Rd. pose proof (prepare_listed fuel sw su m s r P Fe C1 C2 Pr) as Ls.
  pose proof (own_moves su o m s r on pairs Rd St Se Ls Fp lg root (ScreenModel.naive_dual_bound m (ds_obj (fst r)) (ds_vars (fst r))) b x a Q Dv) as H.
  destruct (n_solve _ _ _ _ _ _ _ _ _ _) as [[an rn]|rn y|rn].
  - destruct H as ((H1 & H2) & H3 & H4). split; [exact H1|]. split; [intros y I; apply (H2 y I)|]. split; assumption.
  - exact H.
  - destruct H as ((H1 & H2) & H3). split; [exact H1|]. split; [intros y I; apply (H2 y I)|exact H3].
Qed.

(** ** Curtailing *)
Lemma curtail_range rate size : (0 <= rate <= 1)%Q -> (0 <= size)%Z -> (0 <= ScreenModel.curtail rate size <= size)%Z.
Proof.
  intros [A B] S. unfold ScreenModel.curtail. assert (Qs : (0 <= inject_Z size)%Q) by (rewrite <- (Zle_Qle 0); exact S). split.
  - rewrite <- (Qround.Qfloor_Z 0). apply Qround.Qfloor_resp_le. change (inject_Z 0) with 0%Q. apply Qmult_le_0_compat; assumption.
  - rewrite <- (Qround.Qfloor_Z size) at 2. apply Qround.Qfloor_resp_le. setoid_replace (inject_Z size) with (1 * inject_Z size)%Q at 2 by ring. apply Qmult_le_compat_r; assumption.
Qed.
